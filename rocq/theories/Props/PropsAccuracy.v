(** Properties C81-C83 and C51 for arbitrary floats: how far computed coordinates are from the
    exact ones. *)
Require Import Coq.Strings.String Coq.Lists.List Coq.Arith.Arith Coq.ZArith.ZArith Coq.QArith.QArith Coq.QArith.Qabs Coq.Floats.SpecFloat
  Coq.micromega.Lia Coq.micromega.Lqa.
Require Import Verif.Model.Base Verif.Model.Names Verif.Model.Float Verif.Model.Num Verif.Model.RustNum Verif.Model.Point
  Verif.Model.Contour Verif.Model.Create Verif.Model.Kurbo Verif.Model.Component Verif.Model.Mpoint Verif.Model.Skia Verif.Model.Interop Verif.Model.Xml Verif.Model.Parts
  Verif.Spec.ContourSpec Verif.Spec.OutlineSpec Verif.Spec.PathSpec Verif.Spec.MfekSpec Verif.Spec.AccuracySpec
  Verif.Facts.RoundFacts Verif.Facts.InteropFacts Verif.Facts.BuildersFacts Verif.Facts.AccuracyFacts Verif.Facts.NestFacts Verif.Spec.ComponentSpec Verif.Spec.InteropSpec Verif.Props.PropsComponent.
Import ListNotations.
Local Open Scope string_scope.
Local Open Scope list_scope.
Local Open Scope Q_scope.

(** C81: between two adjacent control points of a quadratic contour stands a point half way
    between them, up to the rounding of 32-bit floats. *)
Theorem C81_implied_near : forall (PD : Type) (l r : list glifpoint) (g h : glifpoint) (x y x' y' : Q),
  gptype g = OffCurve -> gptype h = OffCurve ->
  number (gx g) x -> number (gy g) y -> number (gx h) x' -> number (gy h) y' ->
  sum_fits (gx g) (gx h) -> sum_fits (gy g) (gy h) ->
  Qabs x + Qabs x' <= 2 ^ 126 -> Qabs y + Qabs y' <= 2 ^ 126 ->
  exists c1 p c2, quadratic_contour (PD := PD) rust_num (l ++ g :: h :: r) = c1 ++ copied g :: p :: copied h :: c2 /\
    pptype p = QCurve /\
    within (px p) ((x + x') / 2) ((Qabs x + Qabs x') * 2 ^ (-22) + 2 ^ (-148)) /\
    within (py p) ((y + y') / 2) ((Qabs y + Qabs y') * 2 ^ (-22) + 2 ^ (-148)).
Proof.
  intros PD l r g h x y x' y' Hg Hh Nx Ny Nx' Ny' Fx Fy Bx By.
  destruct (implied_between (PD := PD) rust_num l g h r Hg Hh) as (c1 & c2 & E). exists c1, (half rust_num g h), c2.
  split; [exact E|]. split; [reflexivity|]. split; apply off_within; now apply half_way_off.
Qed.
Print Assumptions C81_implied_near.

(** C81: exactly half way, if the coordinates are multiples of a power of two that 32-bit floats
    can count; for instance integers whose sum is below 2^24. *)
Theorem C81_implied_exact : forall (PD : Type) (l r : list glifpoint) (g h : glifpoint) (k zx zy zx' zy' : Z),
  gptype g = OffCurve -> gptype h = OffCurve -> (-148 <= k <= 103)%Z ->
  number (gx g) (inject_Z zx * 2 ^ k) -> number (gy g) (inject_Z zy * 2 ^ k) ->
  number (gx h) (inject_Z zx' * 2 ^ k) -> number (gy h) (inject_Z zy' * 2 ^ k) ->
  sum_fits (gx g) (gx h) -> sum_fits (gy g) (gy h) ->
  countable zx -> countable zx' -> countable zy -> countable zy' -> countable (zx + zx') -> countable (zy + zy') ->
  exists c1 p c2, quadratic_contour (PD := PD) rust_num (l ++ g :: h :: r) = c1 ++ copied g :: p :: copied h :: c2 /\
    pptype p = QCurve /\
    same_value (px p) (inject_Z (zx + zx') * 2 ^ (k - 1)) /\ same_value (py p) (inject_Z (zy + zy') * 2 ^ (k - 1)).
Proof.
  intros PD l r g h k zx zy zx' zy' Hg Hh Hk. intros.
  destruct (implied_between (PD := PD) rust_num l g h r Hg Hh) as (c1 & c2 & E). exists c1, (half rust_num g h), c2.
  split; [exact E|]. split; [reflexivity|]. split; now apply half_way_exact.
Qed.
Print Assumptions C81_implied_exact.

Example C81_case : let g := mkGP (IInt 3) (IFloat (fl "0.5")) false None OffCurve in
  number (gx g) 3 /\ number (gy g) (1 # 2) /\ number (gx g) (inject_Z 6 * 2 ^ (-1)) /\ number (gy g) (inject_Z 1 * 2 ^ (-1)) /\
  Qabs 3 + Qabs 3 <= 2 ^ 126 /\ countable 6 /\ sum_fits (gx g) (gx g) /\ sum_fits (gy g) (gy g).
Proof.
  cbv zeta. split; [reflexivity|]. split; [split; [reflexivity|eexists; split; [vm_compute; reflexivity|reflexivity]]|].
  split; [reflexivity|]. split; [split; [reflexivity|eexists; split; [vm_compute; reflexivity|reflexivity]]|].
  split; [discriminate|]. split; [reflexivity|]. split; [split; discriminate|exact I].
Qed.

(** C82: the cubic that replaces a quadratic is, at every parameter, as close to it as the rounding
    of 32-bit floats allows (one coordinate). *)
Theorem C82_near_curve : forall (p0 p1 p2 c0 c1 c2 c3 : f32) (x0 x1 x2 : Q),
  float32 p0 x0 -> float32 p1 x1 -> float32 p2 x2 -> Qabs x0 + Qabs x1 + Qabs x2 <= 2 ^ 125 ->
  quad_to_cubic_coord p0 p1 p2 = (c0, c1, c2, c3) ->
  exists a1 a2, c0 = p0 /\ value c1 = Some a1 /\ value c2 = Some a2 /\ c3 = p2 /\
    forall t, 0 <= t <= 1 ->
      Qabs (cubic_at x0 a1 a2 x2 t - quad_at x0 x1 x2 t) <= (Qabs x0 + Qabs x1 + Qabs x2) * 2 ^ (-22) + 2 ^ (-148).
Proof.
  intros p0 p1 p2 c0 c1 c2 c3 x0 x1 x2 H0 H1 H2 B E. cbn in E. injection E as <- <- <- <-.
  pose proof (Qabs_nonneg x0) as N0. pose proof (Qabs_nonneg x1) as N1. pose proof (Qabs_nonneg x2) as N2.
  destruct (elevate_off p0 p1 x0 x1 H0 H1) as (a1 & E1 & K1); [lra|]. destruct (elevate_off p2 p1 x2 x1 H2 H1) as (a2 & E2 & K2); [lra|].
  exists a1, a2. split; [reflexivity|]. split; [assumption|]. split; [assumption|]. split; [reflexivity|].
  intros t [T0 T1]. change (2 ^ (-22)) with (1 # 4194304) in *. assert (0 <= 2 ^ (-148)) by discriminate.
  set (n := 2 ^ (-148)) in *. clearbody n. apply elevated_near; lra.
Qed.
Print Assumptions C82_near_curve.

(** C82: both coordinates are computed this way, from the same coordinate of the three points. *)
Theorem C82_coordinates : forall (PD : Type) (p0 p1 p2 q0 q1 q2 q3 : point PD),
  quad_to_cubic p0 p1 p2 = (q0, q1, q2, q3) ->
  quad_to_cubic_coord (px p0) (px p1) (px p2) = (px q0, px q1, px q2, px q3) /\
  quad_to_cubic_coord (py p0) (py p1) (py p2) = (py q0, py q1, py q2, py q3).
Proof. intros PD p0 p1 p2 q0 q1 q2 q3 H. cbn in H. injection H as <- <- <- <-. split; reflexivity. Qed.
Print Assumptions C82_coordinates.

(** C43: for points of any kind, the first and the last point are the ends of the quadratic. *)
Theorem C43_any_points : forall (T : Type) (L : numlib) (P : pointlike T) (d p0 p1 p2 q0 q1 q2 q3 : T),
  elevate L P d p0 p1 p2 = (q0, q1, q2, q3) -> q0 = p0 /\ q3 = p2.
Proof. intros T L P d p0 p1 p2 q0 q1 q2 q3 H. cbn in H. injection H as <- _ _ <-. auto. Qed.
Print Assumptions C43_any_points.

(** C82: the points of a file.  The two new ones are plain control points; each coordinate of the
    cubic is close to that of the quadratic. *)
Theorem C82_file_points : forall p0 p1 p2 q0 q1 q2 q3 : glifpoint,
  elevate rust_num glifpoint_like (gp_default rust_num) p0 p1 p2 = (q0, q1, q2, q3) ->
  q0 = p0 /\ q3 = p2 /\
  Forall (fun q => gptype q = OffCurve /\ gsmooth q = false /\ gname q = None) [q1; q2] /\
  Forall (fun coord : glifpoint -> iof => forall x0 x1 x2, number (coord p0) x0 -> number (coord p1) x1 -> number (coord p2) x2 ->
    difference_fits (coord p1) (coord p0) -> difference_fits (coord p1) (coord p2) -> Qabs x0 + Qabs x1 + Qabs x2 <= 2 ^ 125 ->
    exists a1 a2, value (f32_of_iof (coord q1)) = Some a1 /\ value (f32_of_iof (coord q2)) = Some a2 /\
      forall t, 0 <= t <= 1 ->
        Qabs (cubic_at x0 a1 a2 x2 t - quad_at x0 x1 x2 t) <= (Qabs x0 + Qabs x1 + Qabs x2) * 2 ^ (-21) + 2 ^ (-147)) [gx; gy].
Proof.
  intros p0 p1 p2 q0 q1 q2 q3 H.
  unfold elevate in H. cbn [quad_to_cubic_coords pl_x pl_y pl_set_x pl_set_y glifpoint_like gp_default gx gy gsmooth gname gptype] in H.
  injection H as <- <- <- <-. split; [reflexivity|]. split; [reflexivity|]. split; [repeat constructor|].
  assert (forall c0 c1 c2 x0 x1 x2, number c0 x0 -> number c1 x1 -> number c2 x2 ->
    difference_fits c1 c0 -> difference_fits c1 c2 -> Qabs x0 + Qabs x1 + Qabs x2 <= 2 ^ 125 ->
    exists a1 a2, value (f32_of_iof (iof_add rust_num c0 (iof_rmul rust_num two_thirds32 (iof_sub rust_num c1 c0)))) = Some a1 /\
      value (f32_of_iof (iof_add rust_num c2 (iof_rmul rust_num two_thirds32 (iof_sub rust_num c1 c2)))) = Some a2 /\
      forall t, 0 <= t <= 1 ->
        Qabs (cubic_at x0 a1 a2 x2 t - quad_at x0 x1 x2 t) <= (Qabs x0 + Qabs x1 + Qabs x2) * 2 ^ (-21) + 2 ^ (-147)) as K.
  { intros c0 c1 c2 x0 x1 x2 H0 H1 H2 D0 D2 B.
    pose proof (Qabs_nonneg x0) as N0. pose proof (Qabs_nonneg x1) as N1. pose proof (Qabs_nonneg x2) as N2.
    destruct (elevate_number_off c0 c1 x0 x1 H0 H1 D0) as (a1 & E1 & K1); [lra|].
    destruct (elevate_number_off c2 c1 x2 x1 H2 H1 D2) as (a2 & E2 & K2); [lra|].
    exists a1, a2. split; [assumption|]. split; [assumption|].
    intros t [T0 T1]. change (2 ^ (-21)) with (1 # 2097152) in *. assert (0 <= 2 ^ (-147)) by discriminate.
    set (n := 2 ^ (-147)) in *. clearbody n. apply elevated_near; lra. }
  constructor; [|constructor; [|constructor]]; cbv beta; cbn [gx gy]; intros; apply K; assumption.
Qed.
Print Assumptions C82_file_points.

(** C82: contour points and skia points are converted by the same arithmetic on 32-bit floats. *)
Theorem C82_same_for_all : forall (PD : Type) (p0 p1 p2 : point PD) (s0 s1 s2 : skpoint),
  elevate rust_num (point_like rust_num PD) point_default p0 p1 p2 = quad_to_cubic p0 p1 p2 /\
  (let '(t0, t1, t2, t3) := elevate rust_num skpoint_like (pos_zero, pos_zero) s0 s1 s2 in [t0; t1; t2; t3] = sk_quad_to_cubic s0 s1 s2).
Proof. intros. split; reflexivity. Qed.
Print Assumptions C82_same_for_all.

(** C43: read as a contour, the four points are one curve with the two new points as its handles. *)
Theorem C43_read_back : forall (PD : Type) (L : numlib) (p0 p1 p2 q0 q1 q2 q3 : glifpoint),
  elevate L glifpoint_like (gp_default L) p0 p1 p2 = (q0, q1, q2, q3) ->
  In (gptype p0) [Move; Line; Curve] -> gptype p2 = Curve ->
  contour_of_glif (PD := PD) L [q0; q1; q2; q3] =
    Ok [with_a (point_of_gp p0) (handle_of_gp (Some q1)); with_b (point_of_gp p2) (handle_of_gp (Some q2))].
Proof.
  intros PD L p0 p1 p2 q0 q1 q2 q3 H H0 H2. cbn in H. injection H as <- <- <- <-.
  cbn in H0. destruct p0 as [x0 y0 s0 n0 t0], p2 as [x2 y2 s2 n2 t2]. cbn in H0, H2. subst t2.
  destruct H0 as [<-|[<-|[<-|[]]]]; reflexivity.
Qed.
Print Assumptions C43_read_back.

Example C43_parabola : let s := mkGP (IInt 0) (IInt 0) false None Move in
  let o := mkGP (IInt 100) (IInt 500) false None OffCurve in let e := mkGP (IInt 200) (IFloat (f32_of_Z 0)) false None Curve in
  (exists q1 q2, elevate rust_num glifpoint_like (gp_default rust_num) s o e = (s, q1, q2, e) /\
     gx q1 = IFloat (fl "66.66667") /\ gy q2 = IFloat (fl "333.33334")) /\
  number (gx s) 0 /\ number (gx o) 100 /\ number (gx e) 200 /\ difference_fits (gx o) (gx s) /\ difference_fits (gx o) (gx e).
Proof.
  cbv zeta. split; [eexists _, _; split; [reflexivity|]; split; vm_compute; reflexivity|].
  do 3 (split; [reflexivity|]). split; split; discriminate.
Qed.

Example C82_case : exists c1 c2, quad_to_cubic_coord (f32_of_Z 0) (f32_of_Z 100) (f32_of_Z 50) = (f32_of_Z 0, c1, c2, f32_of_Z 50) /\
  float32 (f32_of_Z 0) 0 /\ float32 (f32_of_Z 100) 100 /\ float32 (f32_of_Z 50) 50 /\ ~ same_value c1 (200 # 3).
Proof.
  eexists _, _. split; [vm_compute; reflexivity|].
  do 3 (split; [split; [reflexivity|eexists; split; [vm_compute; reflexivity|reflexivity]]|]).
  intros (v & H & E). vm_compute in H. injection H as <-. vm_compute in E. discriminate.
Qed.

(** C83: a point under a component's matrix is where the matrix puts it, up to the rounding of
    32-bit floats relative to the terms added up; so are its handles. *)
Theorem C83_image_near : forall (PD : Type) (m : affine) (a b c d e f : Q) (p : point PD),
  has_coefficients m a b c d e f ->
  let ok (fx fy gx gy : f32) := forall x y, float32 fx x -> float32 fy y ->
    fst (qsizes a b c d e f x y) <= 2 ^ 126 -> snd (qsizes a b c d e f x y) <= 2 ^ 126 ->
    within gx (fst (qapply a b c d e f x y)) (fst (qsizes a b c d e f x y) * 2 ^ (-23) + 2 ^ (-149)) /\
    within gy (snd (qapply a b c d e f x y)) (snd (qsizes a b c d e f x y) * 2 ^ (-23) + 2 ^ (-149)) in
  let q := apply_matrix m p in
  ok (px p) (py p) (px q) (py q) /\
  (forall w, (get_handle q w = Colocated <-> get_handle p w = Colocated) /\
     forall hx hy hx' hy', get_handle p w = At hx hy -> get_handle q w = At hx' hy' -> ok hx hy hx' hy').
Proof.
  intros PD m a b c d e f p (H0 & H1 & H2 & H3 & H4 & H5) ok q.
  assert (forall fx fy gx gy, apply_xy m fx fy = (gx, gy) -> ok fx fy gx gy) as Hok.
  { intros fx fy gx gy E x y Hx Hy S1 S2. cbn in E. injection E as <- <-. cbn [fst snd qsizes qapply] in *.
    split; apply off_within; now apply image_off. }
  split; [apply Hok; reflexivity|]. intros w.
  assert (get_handle q w = apply_handle m (get_handle p w)) as -> by (destruct w; reflexivity).
  split.
  - destruct (get_handle p w); cbn; split; congruence.
  - intros hx hy hx' hy' -> E. cbn in E. injection E as <- <-. apply Hok. reflexivity.
Qed.
Print Assumptions C83_image_near.

Example C83_case : let m := mkAffine (f64_of_f32 (fl "0.5")) (f64_of_Z 0) (f64_of_Z 0) (f64_of_Z 3) (f64_of_Z 10) (f64_of_Z (-7)) in
  has_coefficients m (1 # 2) 0 0 3 10 (-7) /\ float32 (f32_of_Z 11) 11 /\
  fst (qsizes (1 # 2) 0 0 3 10 (-7) 11 11) <= 2 ^ 126 /\ snd (qsizes (1 # 2) 0 0 3 10 (-7) 11 11) <= 2 ^ 126.
Proof.
  cbv zeta. split.
  - repeat split; try reflexivity; (eexists; split; [vm_compute; reflexivity|reflexivity]).
  - split; [split; [reflexivity|eexists; split; [vm_compute; reflexivity|reflexivity]]|]. split; discriminate.
Qed.

(** C83: a position under several matrices, applied one after the other, each result rounded to 32
    bits, is where they put it, up to the sizes of the terms; so are the handles. *)
Theorem C83_nested_near : forall (PD : Type) (ms : list affine) (qs : list qmatrix) (p q : point PD),
  Forall2 coefficients ms qs -> (Z.of_nat (length ms) <= 2 ^ 22)%Z -> moved_point ms p q -> near_point qs p q.
Proof.
  intros PD ms qs p q Hq Hl (H1 & H2 & H3 & H4).
  assert (forall fx fy gx gy, (gx, gy) = move_xy ms fx fy -> near_image qs fx fy gx gy) as Hok.
  { intros fx fy gx gy E x y Hx Hy Hf pp s n.
    destruct (move_near ms qs fx fy x y x y (Qabs x) (Qabs y) 0 Hq Hx Hy) as [(_ & u & [_ (u' & U1 & U2)] & U3) (_ & v & [_ (v' & V1 & V2)] & V3)];
      [lia|exact Hl|apply Qle_refl|apply Qle_refl| | |exact Hf|].
    1,2: rewrite ?Qplus_opp_r; unfold Qminus; rewrite Qplus_opp_r; change (inject_Z 0 * eps) with (0 * eps); rewrite !Qmult_0_l; discriminate.
    rewrite <- E in U1, V1. cbn [fst snd] in U1, V1. assert (length ms = length qs) as El by (clear - Hq; induction Hq as [|m q ms qs _ _ IH]; [reflexivity|cbn; now rewrite IH]).
    rewrite Z.add_0_l, El in U3, V3. split; [exists u'|exists v']; (split; [assumption|]); [rewrite U2; exact U3|rewrite V2; exact V3]. }
  assert (forall h, near_handle qs h (move_handle ms h)) as Hh.
  { intros [x y|]; [|exact I]. cbn [move_handle]. destruct (move_xy ms x y) as [x' y'] eqn:E. cbn [near_handle]. now apply Hok. }
  unfold near_point. rewrite H2, H3. split; [now apply Hok|]. split; [apply Hh|]. split; [apply Hh|exact H4].
Qed.
Print Assumptions C83_nested_near.

(** C83: the matrix of a component in a file has the coefficients the file gives. *)
Theorem C83_file_matrix : forall (m : glifmatrix) (a b c d e f : Q),
  Forall2 iof_value
    [m_xScale m; m_xyScale m; m_yxScale m; m_yScale m; m_xOffset m; m_yOffset m] [a; b; c; d; e; f] ->
  coefficients (affine_of_matrix m) (a, b, c, d, e, f).
Proof.
  assert (forall i x, iof_value i x -> float64 (f64_of_iof i) x) as Hi.
  { intros i x H. split; [destruct i; [apply f64_of_Z_valid|apply f64_of_f32_valid]|now apply iof64_value]. }
  intros m a b c d e f H. do 6 (match goal with H : Forall2 _ (_ :: _) _ |- _ => inversion_clear H end).
  do 5 (split; [apply Hi; assumption|]). apply Hi; assumption.
Qed.
Print Assumptions C83_file_matrix.

(** C83: all of a flattened outline is near where the matrices of its components put it. *)
Theorem C83_flattened_near : forall (L : numlib) (PD PL T : Type) (pd0 : PD) (P : plistlib PL) (files : path -> option T) (parse : T -> option element)
  (fuel : nat) (rects : option (list comp_rect)) (g g' : glif PD PL) (rs : option (list comp_rect)),
  cs_uniques (g_components g) = [] -> flattened L pd0 P files parse fuel rects g = Some (Ok (g', rs)) ->
  exists ts o, Forall2 (resolves (to_component L pd0 P files parse)) (cs_vec (g_components g)) ts /\ g_outline g' = Some o /\
    Forall2 (fun x c' => forall qs, Forall2 coefficients (fst x) qs -> Forall2 (near_point qs) (snd x) c') (flat_map upper_contours ts) o.
Proof.
  intros L PD PL T pd0 P files parse fuel rects g g' rs Hu H. apply C34_matrices_inside_out in H as (ts & o & H1 & H2 & H3); [|exact Hu].
  exists ts, o. split; [exact H1|]. split; [exact H2|].
  assert (Forall (fun x => (length (fst x) <= 2)%nat) (flat_map upper_contours ts)) as Hlen.
  { apply Forall_forall. intros x Hx. apply in_flat_map in Hx as ([c ts'] & _ & Hx). cbn [upper_contours] in Hx. apply in_app_iff in Hx as [Hx|Hx].
    - apply in_map_iff in Hx as (? & <- & _). cbn. lia.
    - apply in_flat_map in Hx as (t' & _ & Hx). apply in_map_iff in Hx as (? & <- & _). cbn. lia. }
  clear H1 H2. induction H3 as [|x c' l o Hm _ IH]; [constructor|]. inversion_clear Hlen as [|? ? L1 L2]. constructor; [|now apply IH].
  intros qs Hq. unfold moved in Hm. induction Hm as [|p q c c' Hp _ IHc]; [constructor|]. constructor; [|exact IHc].
  eapply C83_nested_near; [exact Hq| |exact Hp]. change (2 ^ 22)%Z with 4194304%Z. lia.
Qed.
Print Assumptions C83_flattened_near.

Example C83_nested_case : let m := mkAffine (f64_of_f32 (fl "0.5")) (f64_of_Z 0) (f64_of_Z 0) (f64_of_Z 3) (f64_of_Z 10) (f64_of_Z (-7)) in
  let q := (1 # 2, 0, 0, 3, 10, -7) in
  Forall2 coefficients [m; m] [q; q] /\ float32 (f32_of_Z 11) 11 /\ sizes_fit (Qabs 11, Qabs 11) [q; q] /\
  fst (fold_left qmove [q; q] (11, 11)) == 71 # 4 /\ snd (fold_left qmove [q; q] (11, 11)) == 71 /\ fst (fold_left grow [q; q] (Qabs 11, Qabs 11)) <= 18.
Proof.
  assert (coefficients (mkAffine (f64_of_f32 (fl "0.5")) (f64_of_Z 0) (f64_of_Z 0) (f64_of_Z 3) (f64_of_Z 10) (f64_of_Z (-7))) (1 # 2, 0, 0, 3, 10, -7)) as H.
  { repeat split; try reflexivity; eexists; (split; [vm_compute; reflexivity|reflexivity]). }
  cbv zeta. split; [apply Forall2_cons; [exact H|apply Forall2_cons; [exact H|apply Forall2_nil]]|].
  split; [split; [reflexivity|eexists; split; [vm_compute; reflexivity|reflexivity]]|].
  split; [cbn [sizes_fit]; repeat split; vm_compute; discriminate|]. split; [vm_compute; reflexivity|]. split; [vm_compute; reflexivity|vm_compute; discriminate].
Qed.

(** C51 for arbitrary floats: moving a point moves its placed handles by the same distance up to
    the rounding of 32-bit floats relative to the coordinates involved. *)
Theorem C51_move_near : forall (PD : Type) (m : mpoint PD) (x y : f32) (w : which) (hx hy : f32) (qx qy qx' qy' zx zy : Q),
  float32 (fst (m_position m)) qx -> float32 (snd (m_position m)) qy -> float32 x qx' -> float32 y qy' ->
  m_get_handle m w = Some (At hx hy) -> float32 hx zx -> float32 hy zy ->
  Qabs zx + Qabs qx + Qabs qx' <= 2 ^ 126 -> Qabs zy + Qabs qy + Qabs qy' <= 2 ^ 126 ->
  exists hx' hy', m_get_handle (m_set_position m x y) w = Some (At hx' hy') /\
    within hx' (zx + (qx' - qx)) ((Qabs zx + Qabs qx + Qabs qx') * 2 ^ (-22) + 2 ^ (-148)) /\
    within hy' (zy + (qy' - qy)) ((Qabs zy + Qabs qy + Qabs qy') * 2 ^ (-22) + 2 ^ (-148)).
Proof.
  intros PD m x y w hx hy qx qy qx' qy' zx zy Hx Hy Hx' Hy' Hh Zx Zy Bx By.
  exists (sub32 hx (sub32 (fst (m_position m)) x)), (sub32 hy (sub32 (snd (m_position m)) y)). split.
  - assert (m_get_handle (m_set_position m x y) w = option_map (shift_handle (sub32 (fst (m_position m)) x) (sub32 (snd (m_position m)) y)) (m_get_handle m w)) as ->
      by (destruct m, w; reflexivity).
    rewrite Hh. reflexivity.
  - split; apply off_within; now apply moved_off.
Qed.
Print Assumptions C51_move_near.

(** The case of [C51_move_refuted] is within these bounds. *)
Example C51_near_case : float32 (f32_of_Z 16777216) 16777216 /\ float32 (fl "0.5") (1 # 2) /\ Qabs (1 # 2) + Qabs 16777216 + Qabs 0 <= 2 ^ 126.
Proof.
  do 2 (split; [split; [reflexivity|eexists; split; [vm_compute; reflexivity|reflexivity]]|]). discriminate.
Qed.
