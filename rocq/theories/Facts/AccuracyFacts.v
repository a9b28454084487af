(** Error bounds for computed coordinates. *)
Require Import Coq.ZArith.ZArith Coq.QArith.QArith Coq.QArith.Qpower Coq.QArith.Qabs Coq.Floats.SpecFloat
  Coq.micromega.Lia Coq.micromega.Lqa.
Require Import Verif.Model.Float Verif.Model.Num Verif.Model.RustNum Verif.Model.Kurbo Verif.Model.Component Verif.Spec.MfekSpec Verif.Spec.OutlineSpec Verif.Spec.PathSpec Verif.Spec.AccuracySpec
  Verif.Facts.FloatFacts Verif.Facts.ExactFacts Verif.Facts.ValueFacts Verif.Facts.RoundFacts Verif.Facts.ErrorFacts.
Local Open Scope Q_scope.

(** What rounding gives, with a bound on the size of the exact result. *)
Definition off (f : spec_float) (x err : Q) : Prop := exists q, value f = Some q /\ - err <= q - x /\ q - x <= err.
Lemma off_within f x err : off f x err <-> within f x err.
Proof. unfold off, within. split; intros (q & H & H'); exists q; (split; [assumption|]); now apply Qabs_Qle_condition. Qed.

Definition u32 : Q := 1 # 16777216.
Definition u64 : Q := 1 # 9007199254740992.
Definition n32 : Q := 2 ^ (-150).
Definition n64 : Q := 2 ^ (-1075).
Lemma n32_pos : 0 < n32. Proof. apply pow_pos. Qed.
Lemma n64_pos : 0 < n64. Proof. apply pow_pos. Qed.
Lemma n64_n32 : n64 <= n32 * u64.
Proof. unfold n64, n32. change u64 with (2 ^ (-53)). rewrite <- pow_plus. apply pow_mono. discriminate. Qed.

Lemma near_off32 f x B : near 24 128 f x -> Qabs x <= B -> off f x (B * u32 + n32).
Proof.
  intros (q & H1 & H2 & _) HB. exists q. split; [assumption|]. apply Qabs_Qle_condition. eapply Qle_trans; [exact H2|]. unfold slack.
  change (2 ^ (- (24))) with u32. change (2 ^ (SpecFloat.emin 24 128 - 1)) with n32. apply Qplus_le_compat; [|apply Qle_refl].
  apply Qmult_le_compat_r; [assumption|discriminate].
Qed.
Lemma near_off64 f x B : near 53 1024 f x -> Qabs x <= B -> off f x (B * u64 + n64).
Proof.
  intros (q & H1 & H2 & _) HB. exists q. split; [assumption|]. apply Qabs_Qle_condition. eapply Qle_trans; [exact H2|]. unfold slack.
  change (2 ^ (- (53))) with u64. change (2 ^ (SpecFloat.emin 53 1024 - 1)) with n64. apply Qplus_le_compat; [|apply Qle_refl].
  apply Qmult_le_compat_r; [assumption|discriminate].
Qed.

(** Largest sizes for which nothing overflows. *)
Definition top32 : Q := 2 ^ 127.
Definition top64 : Q := 2 ^ 1023.

Lemma add32_off a b x y B : value a = Some x -> value b = Some y -> Qabs (x + y) <= B -> B <= top32 -> off (add32 a b) (x + y) (B * u32 + n32).
Proof. intros Ha Hb H1 H2. apply near_off32; [|assumption]. apply add_error; try assumption; try reflexivity. eapply Qle_trans; eassumption. Qed.
Lemma sub32_off a b x y B : value a = Some x -> value b = Some y -> Qabs (x - y) <= B -> B <= top32 -> off (sub32 a b) (x - y) (B * u32 + n32).
Proof. intros Ha Hb H1 H2. apply near_off32; [|assumption]. apply sub_error; try assumption; try reflexivity. eapply Qle_trans; eassumption. Qed.
Lemma mul32_off a b x y B : valid32 a = true -> valid32 b = true -> value a = Some x -> value b = Some y -> Qabs (x * y) <= B -> B <= top32 ->
  off (mul32 a b) (x * y) (B * u32 + n32).
Proof.
  intros Va Vb Ha Hb H1 H2. apply near_off32; [|assumption]. apply mul_error; try assumption; try reflexivity; [discriminate|].
  eapply Qle_trans; eassumption.
Qed.
Lemma div32_off a b x y B : value a = Some x -> value b = Some y -> ~ y == 0 -> Qabs (x / y) <= B -> B <= top32 ->
  off (div32 a b) (x / y) (B * u32 + n32).
Proof. intros Ha Hb Hy H1 H2. apply near_off32; [|assumption]. apply div_error; try assumption; try reflexivity. eapply Qle_trans; eassumption. Qed.
Lemma conv32_off f x B : value f = Some x -> Qabs x <= B -> B <= top32 -> off (f32_of_f64 f) x (B * u32 + n32).
Proof. intros Hf H1 H2. apply near_off32; [|assumption]. apply conv_error; try assumption; try reflexivity. eapply Qle_trans; eassumption. Qed.
Lemma int32_off z B : Qabs (inject_Z z) <= B -> B <= top32 -> off (f32_of_Z z) (inject_Z z) (B * u32 + n32).
Proof.
  intros H1 H2. apply near_off32; [|assumption]. unfold f32_of_Z, prec32, emax32. eapply near_proper; [|apply normalize_error; try reflexivity].
  - change (2 ^ 0) with 1. ring.
  - change (2 ^ 0) with 1. rewrite Qmult_1_r. eapply Qle_trans; eassumption.
Qed.
Lemma add64_off a b x y B : value a = Some x -> value b = Some y -> Qabs (x + y) <= B -> B <= top64 -> off (add64 a b) (x + y) (B * u64 + n64).
Proof. intros Ha Hb H1 H2. apply near_off64; [|assumption]. apply add_error; try assumption; try reflexivity. eapply Qle_trans; eassumption. Qed.
Lemma mul64_off a b x y B : valid64 a = true -> valid64 b = true -> value a = Some x -> value b = Some y -> Qabs (x * y) <= B -> B <= top64 ->
  off (mul64 a b) (x * y) (B * u64 + n64).
Proof.
  intros Va Vb Ha Hb H1 H2. apply near_off64; [|assumption]. apply mul_error; try assumption; try reflexivity; [discriminate|].
  eapply Qle_trans; eassumption.
Qed.

(** Widening is exact. *)
Lemma widen_value f x : valid32 f = true -> value f = Some x -> exists y, value (f64_of_f32 f) = Some y /\ y == x.
Proof.
  intros V H. destruct f as [s|s| |s m e]; cbn [value] in H; try discriminate.
  - exists x. split; [assumption|reflexivity].
  - destruct (digits_le_prec _ _ _ _ V) as [D1 D2]. assert (-149 <= e)%Z as D3 by exact D2.
    assert (Zpos m < 2 ^ 24)%Z as Hm.
    { pose proof (digits_bounds m) as [_ Hb]. eapply Z.lt_le_trans; [exact Hb|]. apply Z.pow_le_mono_r; [lia|exact D1]. }
    assert (val (S754_finite s m e) (cond_Zopp s (Zpos m)) e) as Hv.
    { cbn. now rewrite Z.sub_diag, Z.max_id. }
    assert (e <= 104)%Z as He.
    { change (bounded 24 128 m e = true) in V. apply bounded_inv in V. destruct V as [_ V]. lia. }
    destruct (conv_exact 53 1024 ltac:(lia) ltac:(lia) _ _ _ Hv) as [H1 _].
    + destruct s; cbn [cond_Zopp]; lia.
    + unfold SpecFloat.emin. lia.
    + lia.
    + apply val_value in H1 as (v & Hv1 & Hv2). exists v. split; [exact Hv1|]. injection H as <-. exact Hv2.
Qed.

Lemma abs_le x B : Qabs x <= B <-> - B <= x /\ x <= B.
Proof. apply Qabs_Qle_condition. Qed.
Lemma abs_self x : - Qabs x <= x /\ x <= Qabs x.
Proof. apply abs_le, Qle_refl. Qed.
Lemma off_proper f x y err err' : x == y -> err <= err' -> off f x err -> off f y err'.
Proof. intros E L (q & H & H'). exists q. split; [assumption|]. lra. Qed.
Lemma top32_half : 2 ^ 126 == top32 * (1 # 2).
Proof. reflexivity. Qed.
Lemma top32_big : 1000 <= top32. Proof. discriminate. Qed.
Lemma n32_small : n32 <= 1 # 1000. Proof. discriminate. Qed.

Lemma number_off i x : number i x -> Qabs x <= top32 -> off (f32_of_iof i) x (Qabs x * u32 + n32).
Proof.
  destruct i as [z|f]; cbn [number f32_of_iof]; intros Hn Hx.
  - eapply off_proper; [exact Hn|apply Qle_refl|]. apply int32_off; [rewrite Hn; apply Qle_refl|assumption].
  - destruct Hn as [_ (q & H1 & H2)]. exists q. split; [assumption|]. pose proof (Qabs_nonneg x). pose proof n32_pos. unfold u32. lra.
Qed.

Lemma two32 : value (f32_of_Z 2) = Some (inject_Z 8388608 * 2 ^ (-22)).
Proof. reflexivity. Qed.
Lemma div2_off a x B : value a = Some x -> Qabs x <= B -> B <= top32 -> off (div32 a (f32_of_Z 2)) (x / 2) (B * u32 + n32).
Proof.
  intros Ha H1 H2. assert (x / (inject_Z 8388608 * 2 ^ (-22)) == x / 2) as E by (unfold Qdiv; now f_equiv).
  eapply off_proper; [exact E|apply Qle_refl|]. apply div32_off; try assumption; [apply two32|discriminate|].
  rewrite E. apply abs_le. apply abs_le in H1. unfold Qdiv. change (/ 2) with (1 # 2). lra.
Qed.

Lemma bound_name s : s * (1 # 4194304) + 4 * n32 <= s * 2 ^ (-22) + 2 ^ (-148).
Proof. assert (2 ^ (-148) == 4 * n32) as -> by reflexivity. apply Qle_refl. Qed.
Lemma wrap_id z : i32 z -> wrap_i32 z = z.
Proof. unfold i32, wrap_i32. intros H. rewrite Z.mod_small; lia. Qed.
Lemma half_way_off a b x y : number a x -> number b y -> sum_fits a b -> Qabs x + Qabs y <= 2 ^ 126 ->
  off (half_way rust_num a b) ((x + y) / 2) ((Qabs x + Qabs y) * 2 ^ (-22) + 2 ^ (-148)).
Proof.
  intros Ha Hb Hf H. rewrite top32_half in H. pose proof top32_big as T. pose proof n32_small as N. pose proof n32_pos as N0.
  pose proof (abs_self x) as Ax. pose proof (abs_self y) as Ay. pose proof (Qabs_nonneg x) as Px. pose proof (Qabs_nonneg y) as Py.
  eapply off_proper; [reflexivity|apply bound_name|].
  assert (exists s, value (f32_of_iof (iof_add rust_num a b)) = Some s /\
    - (2 * (Qabs x + Qabs y) * u32 * (1001 # 1000) + 3 * n32 * (1001 # 1000)) <= s - (x + y) /\
    s - (x + y) <= 2 * (Qabs x + Qabs y) * u32 * (1001 # 1000) + 3 * n32 * (1001 # 1000)) as (s & Hs & B1 & B2).
  { assert (off (add32 (f32_of_iof a) (f32_of_iof b)) (x + y) (2 * (Qabs x + Qabs y) * u32 * (1001 # 1000) + 3 * n32 * (1001 # 1000))) as Hadd.
    { destruct (number_off a x Ha) as (xa & Ea & Ka); [lra|]. destruct (number_off b y Hb) as (yb & Eb & Kb); [lra|].
      unfold u32 in *.
      destruct (add32_off _ _ xa yb ((Qabs x + Qabs y) * (16777217 # 16777216) + 2 * n32) Ea Eb) as (s & Es & Ks).
      - apply abs_le. lra.
      - lra.
      - exists s. split; [assumption|]. unfold u32 in *. lra. }
    destruct a as [z|f], b as [w|g]; try exact Hadd. cbn [iof_add rust_num f32_of_iof]. cbn in Ha, Hb. rewrite wrap_id by exact Hf.
    assert (inject_Z (z + w) == x + y) as E by (rewrite inject_Z_plus, Ha, Hb; reflexivity).
    destruct (int32_off (z + w) (Qabs x + Qabs y)) as (s & Es & Ks).
    - rewrite E. apply Qabs_triangle.
    - lra.
    - exists s. split; [assumption|]. unfold u32 in *. lra. }
  unfold half_way. cbn [iof_div_f32 rust_num]. cbn [f32_of_iof]. unfold u32 in *.
  destruct (div2_off _ s ((Qabs x + Qabs y) * (1001 # 1000) + 4 * n32) Hs) as (h & Eh & Kh).
  - apply abs_le. lra.
  - lra.
  - exists h. split; [assumption|]. unfold Qdiv, u32 in *. change (/ 2) with (1 # 2) in *. lra.
Qed.

(** The factor two thirds. *)
Lemma two_thirds_value : value two_thirds32 = Some (inject_Z 11184811 * 2 ^ (-24)).
Proof. reflexivity. Qed.
Lemma elevate_off a b x y : float32 a x -> float32 b y -> Qabs x + Qabs y <= 2 ^ 125 ->
  off (add32 a (mul32 two_thirds32 (sub32 b a))) (x + (2 # 3) * (y - x)) ((Qabs x + Qabs y) * 2 ^ (-22) + 2 ^ (-148)).
Proof.
  intros [Va (x' & Ea & Ka)] [Vb (y' & Eb & Kb)] H. assert (2 ^ 125 == top32 * (1 # 4)) as ET by reflexivity. rewrite ET in H. clear ET.
  pose proof top32_big as T. pose proof n32_small as N. pose proof n32_pos as N0.
  pose proof (abs_self x) as Ax. pose proof (abs_self y) as Ay. pose proof (Qabs_nonneg x) as Px. pose proof (Qabs_nonneg y) as Py.
  eapply off_proper; [reflexivity|apply bound_name|].
  destruct (sub32_off b a y' x' (Qabs x + Qabs y) Eb Ea) as (d & Ed & Kd); [apply abs_le; lra|lra|].
  unfold u32 in *.
  set (k := inject_Z 11184811 * 2 ^ (-24)). assert (k == 11184811 # 16777216) as Ek by reflexivity.
  assert (k * d == (11184811 # 16777216) * d) as Ekd by (now rewrite Ek).
  destruct (mul32_off two_thirds32 (sub32 b a) k d ((Qabs x + Qabs y) * (7 # 10) + n32)) as (m & Em & Km).
  - reflexivity.
  - now apply sub_valid.
  - exact two_thirds_value.
  - assumption.
  - apply abs_le. rewrite Ekd. lra.
  - lra.
  - rewrite Ekd in Km. unfold u32 in *. destruct (add32_off a _ x' m ((Qabs x + Qabs y) * (1001 # 1000) + 4 * n32) Ea Em) as (r & Er & Kr).
    + apply abs_le. lra.
    + lra.
    + exists r. split; [assumption|]. unfold u32 in *. lra.
Qed.

Lemma moved_off h a b z x y : float32 h z -> float32 a x -> float32 b y -> Qabs z + Qabs x + Qabs y <= 2 ^ 126 ->
  off (sub32 h (sub32 a b)) (z + (y - x)) ((Qabs z + Qabs x + Qabs y) * 2 ^ (-22) + 2 ^ (-148)).
Proof.
  intros [Vh (z' & Eh & Kh)] [Va (x' & Ea & Ka)] [Vb (y' & Eb & Kb)] H. rewrite top32_half in H.
  pose proof top32_big as T. pose proof n32_small as N. pose proof n32_pos as N0.
  pose proof (abs_self x) as Ax. pose proof (abs_self y) as Ay. pose proof (abs_self z) as Az.
  pose proof (Qabs_nonneg x) as Px. pose proof (Qabs_nonneg y) as Py. pose proof (Qabs_nonneg z) as Pz.
  eapply off_proper; [reflexivity|apply bound_name|].
  destruct (sub32_off a b x' y' (Qabs x + Qabs y) Ea Eb) as (d & Ed & Kd); [apply abs_le; lra|lra|]. unfold u32 in *.
  destruct (sub32_off h _ z' d ((Qabs z + Qabs x + Qabs y) * (1001 # 1000) + n32) Eh Ed) as (r & Er & Kr); [apply abs_le; lra|lra|].
  exists r. split; [assumption|]. unfold u32 in *. lra.
Qed.

Lemma image_off a c e fx fy qa qc qe x y : float64 a qa -> float64 c qc -> float64 e qe -> float32 fx x -> float32 fy y ->
  Qabs (qa * x) + Qabs (qc * y) + Qabs qe <= 2 ^ 126 ->
  off (f32_of_f64 (add64 (add64 (mul64 a (f64_of_f32 fx)) (mul64 c (f64_of_f32 fy))) e)) (qa * x + qc * y + qe)
      ((Qabs (qa * x) + Qabs (qc * y) + Qabs qe) * 2 ^ (-23) + 2 ^ (-149)).
Proof.
  intros [Va (qa' & Ea & Ka)] [Vc (qc' & Ec & Kc)] [Ve (qe' & Ee & Ke)] [Vx (x' & Ex & Kx)] [Vy (y' & Ey & Ky)] H. rewrite top32_half in H.
  destruct (widen_value _ _ Vx Ex) as (x'' & Ex' & Kx'). destruct (widen_value _ _ Vy Ey) as (y'' & Ey' & Ky').
  pose proof top32_big as T. pose proof n32_small as N. pose proof n32_pos as N0. pose proof n64_pos as M0. pose proof n64_n32 as M.
  assert (top32 * 2 <= top64) as T2 by discriminate.
  assert (qa' * x'' == qa * x) as E1 by (rewrite Ka, Kx', Kx; reflexivity).
  assert (qc' * y'' == qc * y) as E2 by (rewrite Kc, Ky', Ky; reflexivity).
  set (P1 := qa * x) in *. set (P2 := qc * y) in *.
  pose proof (abs_self P1) as A1. pose proof (abs_self P2) as A2. pose proof (abs_self qe) as A3.
  pose proof (Qabs_nonneg P1) as B1. pose proof (Qabs_nonneg P2) as B2. pose proof (Qabs_nonneg qe) as B3.
  assert (2 ^ (-149) == 2 * n32) as E149 by reflexivity. eapply off_proper; [reflexivity|rewrite E149; apply Qle_refl|].
  change (2 ^ (-23)) with (1 # 8388608). unfold u64 in M.
  destruct (mul64_off a (f64_of_f32 fx) qa' x'' (Qabs P1) Va (f64_of_f32_valid _) Ea Ex') as (m1 & Em1 & Km1); [rewrite E1; apply Qle_refl|lra|].
  destruct (mul64_off c (f64_of_f32 fy) qc' y'' (Qabs P2) Vc (f64_of_f32_valid _) Ec Ey') as (m2 & Em2 & Km2); [rewrite E2; apply Qle_refl|lra|].
  unfold u64 in *.
  destruct (add64_off _ _ m1 m2 ((Qabs P1 + Qabs P2) * (1001 # 1000) + n32) Em1 Em2) as (s & Es & Ks); [apply abs_le; lra|lra|]. unfold u64 in *.
  destruct (add64_off _ e s qe' ((Qabs P1 + Qabs P2 + Qabs qe) * (1001 # 1000) + n32) Es Ee) as (r & Er & Kr); [apply abs_le; lra|lra|]. unfold u64 in *.
  destruct (conv32_off _ r ((Qabs P1 + Qabs P2 + Qabs qe) * (1001 # 1000) + n32) Er) as (o & Eo & Ko); [apply abs_le; lra|lra|]. unfold u32 in *.
  exists o. split; [assumption|]. lra.
Qed.

(** Exact half ways. *)
Lemma fits32 z k : countable z -> (-149 <= k)%Z -> fits 24 128 (inject_Z z * 2 ^ k).
Proof. intros Hz Hk. exists z, k. split; [reflexivity|]. split; [exact Hz|exact Hk]. Qed.
Lemma grid_top z k : countable z -> (k <= 103)%Z -> Qabs (inject_Z z * 2 ^ k) <= 2 ^ 127.
Proof.
  intros Hz Hk. assert (2 ^ 127 == 2 ^ 24 * 2 ^ 103) as -> by reflexivity. rewrite Qabs_Qmult. rewrite (Qabs_pos (2 ^ k)) by apply Qlt_le_weak, pow_pos.
  apply Qmult_le_compat_nonneg.
  - split; [apply Qabs_nonneg|]. change (Qabs (inject_Z z)) with (inject_Z (Z.abs z)). change (2 ^ 24) with (inject_Z (2 ^ 24)). rewrite <- Zle_Qle. unfold countable in Hz. lia.
  - split; [apply Qlt_le_weak, pow_pos|now apply pow_mono].
Qed.
Lemma near_exact f x z k : near 24 128 f x -> x == inject_Z z * 2 ^ k -> countable z -> (-149 <= k)%Z -> same_value f (inject_Z z * 2 ^ k).
Proof.
  intros (q & H1 & _ & H2) E Hz Hk. exists q. split; [assumption|]. rewrite <- E. apply H2.
  eapply fits_proper; [symmetry; exact E|]. now apply fits32.
Qed.
Lemma number_exact i z k : number i (inject_Z z * 2 ^ k) -> countable z -> (-149 <= k <= 103)%Z -> same_value (f32_of_iof i) (inject_Z z * 2 ^ k).
Proof.
  intros H Hz Hk. destruct i as [n|f]; cbn [number f32_of_iof] in *; [|apply H].
  assert (inject_Z n * 2 ^ 0 == inject_Z z * 2 ^ k) as E by (rewrite <- H; change (2 ^ 0) with 1; ring).
  eapply near_exact; [apply normalize_error; try reflexivity; rewrite E; apply grid_top; [assumption|lia]|exact E|assumption|lia].
Qed.
Lemma half_way_exact a b z w k : number a (inject_Z z * 2 ^ k) -> number b (inject_Z w * 2 ^ k) -> sum_fits a b ->
  countable z -> countable w -> countable (z + w) -> (-148 <= k <= 103)%Z ->
  same_value (half_way rust_num a b) (inject_Z (z + w) * 2 ^ (k - 1)).
Proof.
  intros Ha Hb Hf Hz Hw Hzw Hk.
  assert (same_value (f32_of_iof (iof_add rust_num a b)) (inject_Z (z + w) * 2 ^ k)) as (s & Es & Ks).
  { assert (same_value (add32 (f32_of_iof a) (f32_of_iof b)) (inject_Z (z + w) * 2 ^ k)) as Hadd.
    { destruct (number_exact _ _ _ Ha Hz) as (x & Ex & Kx); [lia|]. destruct (number_exact _ _ _ Hb Hw) as (y & Ey & Ky); [lia|].
      assert (x + y == inject_Z (z + w) * 2 ^ k) as E by (rewrite Kx, Ky, inject_Z_plus; ring).
      eapply near_exact; [apply add_error; try reflexivity; try eassumption; rewrite E; apply grid_top; [assumption|lia]|exact E|assumption|lia]. }
    destruct a as [n|f], b as [m|g]; try exact Hadd. cbn [iof_add rust_num]. rewrite wrap_id by exact Hf.
    apply number_exact; [cbn in *; rewrite !inject_Z_plus, Ha, Hb; ring|assumption|lia]. }
  unfold half_way. cbn [iof_div_f32 rust_num]. cbn [f32_of_iof].
  assert (s / (inject_Z 8388608 * 2 ^ (-22)) == inject_Z (z + w) * 2 ^ (k - 1)) as E.
  { rewrite Ks, pow_m1. unfold Qdiv. assert (/ (inject_Z 8388608 * 2 ^ (-22)) == / 2) as -> by reflexivity. ring. }
  eapply near_exact; [refine (div_error 24 128 _ _ _ _ _ _ Es two32 _ _); try reflexivity; [discriminate|rewrite E; apply grid_top; [assumption|lia]]|exact E|assumption|lia].
Qed.

(** The same on numbers of a file. *)
Lemma bound_name4 s : s * (1 # 2097152) + 8 * n32 <= s * 2 ^ (-21) + 2 ^ (-147).
Proof. assert (2 ^ (-147) == 8 * n32) as -> by reflexivity. apply Qle_refl. Qed.
Lemma number_valid i x : number i x -> valid32 (f32_of_iof i) = true.
Proof. destruct i as [z|f]; cbn [number f32_of_iof]; [intros _; apply f32_of_Z_valid|now intros [H _]]. Qed.
Lemma elevate_number_off a b x y : number a x -> number b y -> difference_fits b a -> Qabs x + Qabs y <= 2 ^ 125 ->
  off (f32_of_iof (iof_add rust_num a (iof_rmul rust_num two_thirds32 (iof_sub rust_num b a)))) (x + (2 # 3) * (y - x))
    ((Qabs x + Qabs y) * 2 ^ (-21) + 2 ^ (-147)).
Proof.
  intros Ha Hb Hf H. assert (2 ^ 125 == top32 * (1 # 4)) as ET by reflexivity. rewrite ET in H. clear ET.
  pose proof top32_big as T. pose proof n32_small as N. pose proof n32_pos as N0.
  pose proof (abs_self x) as Ax. pose proof (abs_self y) as Ay. pose proof (Qabs_nonneg x) as Px. pose proof (Qabs_nonneg y) as Py.
  eapply off_proper; [reflexivity|apply bound_name4|].
  destruct (number_off a x Ha) as (xa & Ea & Ka); [lra|]. destruct (number_off b y Hb) as (yb & Eb & Kb); [lra|].
  assert (exists d, value (f32_of_iof (iof_sub rust_num b a)) = Some d /\ valid32 (f32_of_iof (iof_sub rust_num b a)) = true /\
    - (2 * (Qabs x + Qabs y) * u32 * (1001 # 1000) + 3 * n32 * (1001 # 1000)) <= d - (y - x) /\
    d - (y - x) <= 2 * (Qabs x + Qabs y) * u32 * (1001 # 1000) + 3 * n32 * (1001 # 1000)) as (d & Ed & Vd & D1 & D2).
  { assert (exists d, value (sub32 (f32_of_iof b) (f32_of_iof a)) = Some d /\ valid32 (sub32 (f32_of_iof b) (f32_of_iof a)) = true /\
      - (2 * (Qabs x + Qabs y) * u32 * (1001 # 1000) + 3 * n32 * (1001 # 1000)) <= d - (y - x) /\
      d - (y - x) <= 2 * (Qabs x + Qabs y) * u32 * (1001 # 1000) + 3 * n32 * (1001 # 1000)) as Hsub.
    { unfold u32 in *.
      destruct (sub32_off _ _ yb xa ((Qabs x + Qabs y) * (16777217 # 16777216) + 2 * n32) Eb Ea) as (s & Es & Ks).
      - apply abs_le. lra.
      - lra.
      - exists s. split; [assumption|]. split; [apply sub_valid; [reflexivity|reflexivity|eapply number_valid; eassumption|eapply number_valid; eassumption]|]. unfold u32 in *. lra. }
    destruct a as [z|f], b as [w|g]; try exact Hsub. cbn [iof_sub rust_num f32_of_iof]. rewrite wrap_id by exact Hf. cbn in Ha, Hb.
    assert (inject_Z (w - z) == y - x) as E.
    { unfold Z.sub, Qminus. rewrite inject_Z_plus, inject_Z_opp, Ha, Hb. reflexivity. }
    destruct (int32_off (w - z) (Qabs x + Qabs y)) as (s & Es & Ks).
    - rewrite E. apply abs_le. lra.
    - lra.
    - exists s. split; [assumption|]. split; [apply f32_of_Z_valid|]. unfold u32 in *. lra. }
  set (k := inject_Z 11184811 * 2 ^ (-24)). assert (k == 11184811 # 16777216) as Ek by reflexivity.
  assert (k * d == (11184811 # 16777216) * d) as Ekd by (now rewrite Ek). unfold u32 in *.
  destruct (mul32_off two_thirds32 (f32_of_iof (iof_sub rust_num b a)) k d ((Qabs x + Qabs y) * (7 # 10) + 3 * n32)) as (m & Em & Km).
  - reflexivity.
  - assumption.
  - exact two_thirds_value.
  - assumption.
  - apply abs_le. rewrite Ekd. lra.
  - lra.
  - rewrite Ekd in Km. unfold u32 in *.
    assert (f32_of_iof (iof_add rust_num a (iof_rmul rust_num two_thirds32 (iof_sub rust_num b a))) =
      add32 (f32_of_iof a) (mul32 two_thirds32 (f32_of_iof (iof_sub rust_num b a)))) as -> by (destruct a; reflexivity).
    destruct (add32_off _ _ xa m ((Qabs x + Qabs y) * (1001 # 1000) + 7 * n32) Ea Em) as (r & Er & Kr).
    + apply abs_le. lra.
    + lra.
    + exists r. split; [assumption|]. unfold u32 in *. lra.
Qed.

(** Points of the curve. *)
Lemma elevated_near p0 p1 p2 a1 a2 t err : 0 <= t -> t <= 1 -> 0 <= err ->
  - err <= a1 - (p0 + (2 # 3) * (p1 - p0)) /\ a1 - (p0 + (2 # 3) * (p1 - p0)) <= err ->
  - err <= a2 - (p2 + (2 # 3) * (p1 - p2)) /\ a2 - (p2 + (2 # 3) * (p1 - p2)) <= err ->
  Qabs (cubic_at p0 a1 a2 p2 t - quad_at p0 p1 p2 t) <= err.
Proof.
  intros H0 H1 He K1 K2. set (d1 := a1 - (p0 + (2 # 3) * (p1 - p0))) in *. set (d2 := a2 - (p2 + (2 # 3) * (p1 - p2))) in *.
  assert (cubic_at p0 a1 a2 p2 t - quad_at p0 p1 p2 t == 3 * (1 - t) * t * ((1 - t) * d1 + t * d2)) as ->.
  { unfold cubic_at, quad_at, d1, d2. ring. }
  clearbody d1 d2. apply abs_le.
  assert (- err <= (1 - t) * d1 + t * d2 /\ (1 - t) * d1 + t * d2 <= err) as K by nra.
  set (d := (1 - t) * d1 + t * d2) in *. clearbody d.
  assert (0 <= 3 * (1 - t) * t /\ 3 * (1 - t) * t <= 1) as W by nra. set (w := 3 * (1 - t) * t) in *. clearbody w. nra.
Qed.
