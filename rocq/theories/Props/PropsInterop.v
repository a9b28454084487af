(** Properties C61-C69: file names, rounding, conversions to the types of other libraries,
    whole-glyph conversions, saving, flattening of MFEK glyphs, names of handles. *)
Require Import Coq.Strings.String Coq.Lists.List Coq.NArith.NArith Coq.ZArith.ZArith Coq.Bool.Bool Coq.QArith.QArith Coq.Floats.SpecFloat Coq.micromega.Lia.
Require Import Verif.Model.Base Verif.Model.Text Verif.Model.Float Verif.Model.Num Verif.Model.RustNum Verif.Model.Point Verif.Model.Contour
  Verif.Model.Refigure Verif.Model.Names Verif.Model.Pedantry Verif.Model.Color Verif.Model.Xml Verif.Model.Parts
  Verif.Model.Read Verif.Model.Write Verif.Model.Component Verif.Model.Mpoint Verif.Model.Mfek Verif.Model.Skia Verif.Model.Interop
  Verif.Spec.NumSpec Verif.Spec.GlyphSpec Verif.Spec.MfekSpec Verif.Spec.InteropSpec
  Verif.Facts.FloatFacts Verif.Facts.ExactFacts Verif.Facts.ValueFacts Verif.Facts.RoundFacts Verif.Facts.NamesFacts Verif.Facts.PathFacts
  Verif.Facts.GlyphFacts Verif.Facts.InteropFacts Verif.Props.PropsGlyph.
Import ListNotations.
Local Open Scope nat_scope.

(** * C61: file names *)
Theorem C61_filename_shape : forall name : str,
  name_to_filename name true = filename_of name /\ name_to_filename name false ++ lit ".glif" = filename_of name.
Proof. intros name. split; [apply name_to_filename_shape|]. unfold name_to_filename. rewrite push_fold. reflexivity. Qed.
Print Assumptions C61_filename_shape.

(** The check says yes exactly for that file name, no for another, and an error if there is no
    file name; it never panics. *)
Theorem C61_filename_is_sane : forall (name : str) (p : option path),
  (filename_is_sane name p = Ok true <-> exists q, p = Some q /\ ends_in q (filename_of name)) /\
  (filename_is_sane name p = Ok false <-> exists q f, p = Some q /\ ends_in q f /\ f <> filename_of name) /\
  ((exists e, filename_is_sane name p = Err e) <-> p = None \/ exists q, p = Some q /\ forall f, ~ ends_in q f) /\
  filename_is_sane name p <> Panic.
Proof.
  intros name p. unfold filename_is_sane. rewrite name_to_filename_shape. destruct p as [q|].
  - destruct (path_file_name q) as [f|] eqn:E.
    + pose proof (proj1 (path_file_name_iff q f) E) as Ef. assert (forall g, ends_in q g -> g = f) as U by (intros g Hg; apply path_file_name_iff in Hg; congruence).
      split; [|split; [|split]].
      * split.
        -- intros H. exists q. split; [reflexivity|]. injection H as H. destruct (str_eqb_spec (filename_of name) f) as [->|]; [assumption|discriminate].
        -- intros (q' & [= <-] & H). rewrite (U _ H). destruct (str_eqb_spec f f); [reflexivity|congruence].
      * split.
        -- intros H. exists q, f. split; [reflexivity|]. split; [assumption|]. injection H as H. intros ->. destruct (str_eqb_spec (filename_of name) (filename_of name)); [discriminate|congruence].
        -- intros (q' & f' & [= <-] & H & N). rewrite (U _ H) in N. destruct (str_eqb_spec (filename_of name) f); [congruence|reflexivity].
      * split; [intros (e & H); discriminate|]. intros [H|(q' & [= <-] & H)]; [discriminate|]. now apply H in Ef.
      * discriminate.
    + assert (forall f, ~ ends_in q f) as N by (intros f H; apply path_file_name_iff in H; congruence).
      split; [|split; [|split]].
      * split; [discriminate|]. intros (q' & [= <-] & H). now apply N in H.
      * split; [discriminate|]. intros (q' & f' & [= <-] & H & _). now apply N in H.
      * split; eauto.
      * discriminate.
  - split; [|split; [|split]].
    + split; [discriminate|]. intros (q' & H & _). discriminate.
    + split; [discriminate|]. intros (q' & f' & H & _). discriminate.
    + split; eauto.
    + discriminate.
Qed.
Print Assumptions C61_filename_is_sane.
Example C61_case : filename_of (lit "A.sc") = lit "A_.sc.glif" /\ filename_of (lit "Zcaron") = lit "Zcaron.glif" /\
  ends_in [lit "glyphs"; lit "A_.sc.glif"] (filename_of (lit "A.sc")) /\
  filename_is_sane (lit "A.sc") (Some [lit "glyphs"; lit "A.sc.glif"]) = Ok false.
Proof. split; [reflexivity|]. split; [reflexivity|]. split; [split; [now exists [lit "glyphs"]|repeat split; discriminate]|reflexivity]. Qed.

(** Put in a directory under the file name of its own name, a glyph passes the check exactly if
    its name has no path separator. *)
Theorem C61_own_name : forall (name : str) (dir : path),
  filename_is_sane name (Some (path_push dir (path_of (filename_of name)))) = Ok true <-> ~ In 47%N name.
Proof.
  intros name dir. rewrite (proj1 (C61_filename_is_sane _ _)). split.
  - intros (q & [= <-] & H). destruct (path_of_dotglif (flat_map letter_in_filename name)) as (l & c & E & Hc).
    fold (filename_of name) in E. rewrite E in H. destruct (push_snoc dir l (c ++ lit ".glif") (dotglif_normal _)) as (d & Ed).
    assert (ends_in (d ++ [c ++ lit ".glif"]) (filename_of name)) as ((d' & H1) & _) by (exact (eq_ind _ (fun p => ends_in p (filename_of name)) H _ Ed)). clear H. rename H1 into H. apply app_inj_tail in H as [_ H]. rewrite <- (glif_slash name), name_to_filename_shape, <- H.
    rewrite in_app_iff. intros [Hi|Hi]; [contradiction|]. cbn in Hi. repeat destruct Hi as [Hi|Hi]; try discriminate; assumption.
  - intros H. eexists. split; [reflexivity|]. rewrite <- name_to_filename_shape, push_glif by assumption.
    apply path_file_name_iff, file_name_some. exists dir. split; [reflexivity|apply glif_normal].
Qed.
Print Assumptions C61_own_name.
Example C61_separator : filename_is_sane (lit "a/b") (Some (path_push [lit "glyphs"] (path_of (filename_of (lit "a/b"))))) = Ok false /\
  path_push [lit "glyphs"] (path_of (filename_of (lit "a/b"))) = [lit "glyphs"; lit "a"; lit "b.glif"].
Proof. split; reflexivity. Qed.

(** * C62: rounding to integers *)
(** Rounding an outline gives each coordinate the nearest integer, halves away from zero;
    coordinates that are not finite, handles and everything else stay as they are. *)
Theorem C62_outline_rounded : forall (PD : Type) (o : list (list (point PD))),
  Forall (Forall (fun p => valid32 (px p) = true /\ valid32 (py p) = true)) o ->
  Forall2 (Forall2 (fun p p' =>
    (forall q, value (px p) = Some q -> exists z, nearest q z /\ same_value (px p') (inject_Z z)) /\
    (forall q, value (py p) = Some q -> exists z, nearest q z /\ same_value (py p') (inject_Z z)) /\
    (value (px p) = None -> px p' = px p) /\ (value (py p) = None -> py p' = py p) /\
    pa p' = pa p /\ pb p' = pb p /\ pname p' = pname p /\ pptype p' = pptype p /\ psmooth p' = psmooth p /\ pdata p' = pdata p))
    o (outline_round_to_int o).
Proof.
  intros PD o H. unfold outline_round_to_int.
  assert (forall f, valid32 f = true -> forall q, value f = Some q -> exists z, nearest q z /\ same_value (round32 f) (inject_Z z)) as R.
  { intros f V q Hq. destruct (round_nearest f q V Hq) as (z & Hz & _ & Hn). exists z. split; [assumption|]. apply val_value in Hz. destruct Hz as (v & E & Hv). exists v. split; [assumption|].
    rewrite Hv. change (2 ^ 0)%Q with 1%Q. ring. }
  assert (forall f, value f = None -> round32 f = f) as N by (intros [s|s| |s m e]; try reflexivity; discriminate).
  induction H as [|c o Hc Ho IH]; cbn [map]; constructor; [|exact IH]. clear IH Ho.
  induction Hc as [|p c [Hx Hy] Hc IH]; cbn [map]; constructor; [|exact IH].
  repeat split; cbn; auto.
Qed.
Print Assumptions C62_outline_rounded.

(** Rounding twice is rounding once. *)
Theorem C62_idempotent : forall (PD : Type) (o : list (list (point PD))),
  Forall (Forall (fun p => valid32 (px p) = true /\ valid32 (py p) = true)) o ->
  outline_round_to_int (outline_round_to_int o) = outline_round_to_int o.
Proof.
  intros PD o H. unfold outline_round_to_int. rewrite map_map. apply map_ext_in. intros c Hc. rewrite map_map. apply map_ext_in. intros p Hp.
  rewrite Forall_forall in H. specialize (H c Hc). rewrite Forall_forall in H. specialize (H p Hp). destruct H as [Hx Hy].
  unfold round_to_int. cbn. rewrite !round_round by assumption. reflexivity.
Qed.
Print Assumptions C62_idempotent.

(** The points of a file: the coordinate is first taken as a 32-bit float, rounded, and brought
    into the range of i32; not a number gives 0.  Nothing else changes. *)
Theorem C62_file_points_rounded : forall (o : list (list glifpoint)),
  Forall (Forall (fun g => proper_iof (gx g) /\ proper_iof (gy g))) o ->
  let ok i i' :=
    match f32_of_iof i with
    | S754_nan => i' = IInt 0
    | S754_infinity true => i' = IInt (- 2 ^ 31)
    | S754_infinity false => i' = IInt (2 ^ 31 - 1)
    | f => forall q, value f = Some q -> exists z, nearest q z /\ i' = IInt (into_i32 z)
    end in
  Forall2 (Forall2 (fun g g' => ok (gx g) (gx g') /\ ok (gy g) (gy g') /\
    gsmooth g' = gsmooth g /\ gname g' = gname g /\ gptype g' = gptype g)) o (glifoutline_round_to_int o).
Proof.
  intros o H ok. unfold glifoutline_round_to_int.
  assert (forall i, proper_iof i -> ok i (IInt (f32_as_i32 (round32 (f32_of_iof i))))) as R.
  { intros i Hi. unfold ok. assert (valid32 (f32_of_iof i) = true) as V by (destruct i; [apply f32_of_Z_valid|exact Hi]).
    assert (forall q, value (f32_of_iof i) = Some q -> exists z, nearest q z /\ IInt (f32_as_i32 (round32 (f32_of_iof i))) = IInt (into_i32 z)) as X.
    { intros q Hq. destruct (round_nearest _ q V Hq) as (z & Hz & _ & Hn). exists z. split; [assumption|]. f_equal. now apply as_i32_val. }
    destruct (f32_of_iof i) as [s|s| |s m e]; [exact X| |reflexivity|exact X]. destruct s; reflexivity. }
  clearbody ok.
  induction H as [|c o Hc Ho IH]; cbn [map]; constructor; [|exact IH]. clear IH Ho.
  induction Hc as [|p c [Hx Hy] Hc IH]; cbn [map]; constructor; [|exact IH]. cbn. auto.
Qed.
Print Assumptions C62_file_points_rounded.

(** Integers of at most 2^24 stay as they are. *)
Theorem C62_integers_kept_partial : forall (g : glifpoint) (x y : Z), gx g = IInt x -> gy g = IInt y ->
  (Z.abs x < 2 ^ 24)%Z -> (Z.abs y < 2 ^ 24)%Z -> gp_round_to_int g = g.
Proof.
  intros [gx0 gy0 s n t] x y. cbn. intros -> -> Hx Hy. unfold gp_round_to_int. cbn.
  assert (forall z, (Z.abs z < 2 ^ 24)%Z -> f32_as_i32 (round32 (f32_of_Z z)) = z) as K.
  { intros z Hz. destruct (val_of_Z32 z Hz) as [Hv V]. rewrite (round_of_val _ _ V Hv). rewrite (as_i32_val _ _ Hv). unfold into_i32.
    destruct (Z.ltb_spec z (- 2 ^ 31)); [lia|]. destruct (Z.ltb_spec (2 ^ 31 - 1) z); [lia|reflexivity]. }
  rewrite !K by assumption. reflexivity.
Qed.
Print Assumptions C62_integers_kept_partial.

(** "Coordinates that are integers already are left alone" is false of larger integers. *)
Theorem C62_integers_kept_refuted : exists g, proper_iof (gx g) /\ gx g = IInt 16777217 /\ gx (gp_round_to_int g) = IInt 16777216.
Proof. exists (mkGP (IInt 16777217) (IInt 0) false None Line). split; [unfold proper_iof; cbn; lia|]. split; [reflexivity|vm_compute; reflexivity]. Qed.
Print Assumptions C62_integers_kept_refuted.
Example C62_case : value (fl "2.5") = Some (inject_Z 10485760 * 2 ^ -22)%Q /\ nearest (5 # 2) 3 /\ nearest (- 5 # 2) (-3) /\ ~ nearest (5 # 2) 2 /\
  round32 (fl "2.5") = f32_of_Z 3 /\ valid32 (fl "2.5") = true.
Proof.
  split; [vm_compute; reflexivity|]. split; [repeat split; try discriminate; intros; reflexivity|]. split; [repeat split; try discriminate; intros; reflexivity|].
  split; [|split; vm_compute; reflexivity]. intros (_ & H & _). specialize (H eq_refl). discriminate H.
Qed.

(** * C63: positions handed to kurbo and skia *)
Theorem C63_skia_kurbo_skia : forall x y : f32, valid32 x = true -> valid32 y = true ->
  sk_of_kurbo (kurbo_of_sk (x, y)) = (x, y).
Proof. intros x y Hx Hy. unfold sk_of_kurbo, kurbo_of_sk. cbn. now rewrite !f32_of_f64_of_f32. Qed.
Print Assumptions C63_skia_kurbo_skia.

(** The other way round exactly if both coordinates fit a 32-bit float. *)
Theorem C63_kurbo_skia_kurbo : forall k : kpoint,
  kurbo_of_sk (sk_of_kurbo k) = k <-> fits32 (kx k) /\ fits32 (ky k).
Proof.
  intros [x y]. rewrite !fits32_iff. unfold sk_of_kurbo, kurbo_of_sk. cbn. split.
  - intros H. injection H as H1 H2. auto.
  - intros [-> ->]. reflexivity.
Qed.
Print Assumptions C63_kurbo_skia_kurbo.

(** A position has the same value as a kurbo point: for the points of an outline, those of a
    file, and skia's. *)
Theorem C63_exact_as_kurbo : forall (L : numlib) (PD : Type) (p : point PD) (g : glifpoint) (s : skpoint) (q : Q),
  (forall f q, valid32 f = true -> same_value f q -> iof_value (iof_of_f32 L f) q) ->
  (valid32 (px p) = true -> same_value (px p) q -> same_value (kx (as_kpoint (point_like L PD) p)) q) /\
  (valid32 (py p) = true -> same_value (py p) q -> same_value (ky (as_kpoint (point_like L PD) p)) q) /\
  (forall z, gx g = IInt z -> proper_iof (gx g) -> same_value (kx (as_kpoint glifpoint_like g)) (inject_Z z)) /\
  (forall f, gx g = IFloat f -> valid32 f = true -> same_value f q -> same_value (kx (as_kpoint glifpoint_like g)) q) /\
  (forall z, gy g = IInt z -> proper_iof (gy g) -> same_value (ky (as_kpoint glifpoint_like g)) (inject_Z z)) /\
  (forall f, gy g = IFloat f -> valid32 f = true -> same_value f q -> same_value (ky (as_kpoint glifpoint_like g)) q) /\
  as_kpoint skpoint_like s = kurbo_of_sk s.
Proof.
  intros L PD p g s q HL.
  assert (forall f, valid32 f = true -> same_value f q -> same_value (f64_of_f32 f) q) as F by (intros; now apply f64_value).
  assert (forall z, proper_iof (IInt z) -> same_value (f64_of_Z z) (inject_Z z)) as Z by (intros; now apply Z64_value).
  assert (forall f, valid32 f = true -> same_value f q -> same_value (f64_of_iof (iof_of_f32 L f)) q) as I.
  { intros f V H. apply iof64_value. now apply HL. }
  unfold as_kpoint, x64, y64. cbn. repeat split; auto.
  all: intros z E; rewrite E; cbn [f64_of_iof]; auto.
Qed.
Print Assumptions C63_exact_as_kurbo.
(** Setting a coordinate and reading it, and that the other one stays. *)
Theorem C63_set_and_get : forall (L : numlib) (PD : Type) (p : point PD) (g : glifpoint) (s : skpoint) (i : iof),
  (forall f, f32_of_iof (iof_of_f32 L f) = f) ->
  (x32 (point_like L PD) (pl_set_x (point_like L PD) p i) = f32_of_iof i /\
   y32 (point_like L PD) (pl_set_x (point_like L PD) p i) = py p /\
   y32 (point_like L PD) (pl_set_y (point_like L PD) p i) = f32_of_iof i /\
   x32 (point_like L PD) (pl_set_y (point_like L PD) p i) = px p) /\
  (pl_set_x glifpoint_like g i = mkGP i (gy g) (gsmooth g) (gname g) (gptype g) /\
   pl_set_y glifpoint_like g i = mkGP (gx g) i (gsmooth g) (gname g) (gptype g) /\
   pl_x glifpoint_like g = gx g /\ pl_y glifpoint_like g = gy g) /\
  (pl_set_x skpoint_like s i = (f32_of_iof i, snd s) /\ pl_set_y skpoint_like s i = (fst s, f32_of_iof i) /\
   x32 skpoint_like s = fst s /\ y32 skpoint_like s = snd s).
Proof. intros L PD p g s i HL. unfold x32, y32. cbn. rewrite !HL. repeat split. Qed.
Print Assumptions C63_set_and_get.
(** C63: a skia point is valid exactly if neither coordinate is NaN. *)
Theorem C63_skia_valid : forall x y : f32, sk_is_valid (x, y) = true <-> x <> S754_nan /\ y <> S754_nan.
Proof.
  intros x y. unfold sk_is_valid. cbn [fst snd]. rewrite andb_true_iff, !negb_true_iff.
  destruct x, y; cbn; split; intros [H1 H2]; split; congruence.
Qed.
Print Assumptions C63_skia_valid.
Theorem C63_from_kurbo : forall (L : numlib) (k : kpoint) (t : ptype), (forall f, f32_of_iof (iof_of_f32 L f) = f) ->
  (f32_of_iof (gx (gp_from_kurbo L k t)), f32_of_iof (gy (gp_from_kurbo L k t))) = sk_of_kurbo k /\
  gptype (gp_from_kurbo L k t) = t /\ gptype (gp_from_kurbo_offcurve L k) = OffCurve /\
  gname (gp_from_kurbo L k t) = None /\ gsmooth (gp_from_kurbo L k t) = false.
Proof. intros L k t HL. cbn. rewrite !HL. repeat split. Qed.
Print Assumptions C63_from_kurbo.
Example C63_case : fits32 (f64_of_Z 3) /\ ~ fits32 (f64_of_Z 16777217) /\ (forall f, f32_of_iof (iof_of_f32 rust_num f) = f) /\
  (forall f q, valid32 f = true -> same_value f q -> iof_value (iof_of_f32 rust_num f) q).
Proof.
  split; [apply fits32_iff; vm_compute; reflexivity|]. split; [rewrite fits32_iff; vm_compute; discriminate|]. split; [reflexivity|]. intros f q V H. split; assumption.
Qed.

(** * C64: matrices handed to skia *)
(** Each coefficient is rounded once, from its value; the order is xScale, xyScale, yxScale,
    yScale, xOffset, yOffset; all ways of handing it over agree. *)
Theorem C64_matrix_to_skia : forall m : glifmatrix, proper_matrix m ->
  sk_matrix_of_glif m = (f32_of_iof (m_xScale m), f32_of_iof (m_xyScale m), f32_of_iof (m_yxScale m),
                         f32_of_iof (m_yScale m), f32_of_iof (m_xOffset m), f32_of_iof (m_yOffset m)) /\
  sk_matrix_of_glif m = sk_matrix_of_affine (affine_of_matrix m) /\
  sk_matrix_of_glif m = sk_matrix_of_f64s (as_coeffs (affine_of_matrix m)) /\
  sk_matrix_of_glif m = sk_matrix_of_f32s (six_to_f32 (as_coeffs (affine_of_matrix m))).
Proof.
  intros m (H1 & H2 & H3 & H4 & H5 & H6). split; [|repeat split].
  unfold sk_matrix_of_glif, sk_matrix_of_affine, six_to_f32, as_coeffs, affine_of_matrix. cbn. rewrite !proper_once by assumption. reflexivity.
Qed.
Print Assumptions C64_matrix_to_skia.

(** Giving an image a matrix: skia is handed that matrix then, and nothing else changes. *)
Theorem C64_image_matrix : forall (conv : f64 -> iof) (i : glifimage) (m : affine),
  (forall d, proper_iof (conv d) /\ f32_of_iof (conv d) = f32_of_f64 d) ->
  sk_matrix_of_glif (i_matrix (image_set_matrix conv i m)) = sk_matrix_of_affine m /\
  i_filename (image_set_matrix conv i m) = i_filename i /\ i_identifier (image_set_matrix conv i m) = i_identifier i /\
  i_color (image_set_matrix conv i m) = i_color i.
Proof.
  intros conv i m H. split; [|repeat split]. cbn [image_set_matrix as_coeffs i_matrix].
  unfold sk_matrix_of_glif, sk_matrix_of_affine, six_to_f32, as_coeffs, affine_of_matrix. cbn.
  rewrite !proper_once by apply H. f_equal; [|apply H]. f_equal; [|apply H]. f_equal; [|apply H]. f_equal; [|apply H]. f_equal; apply H.
Qed.
Print Assumptions C64_image_matrix.
Example C64_case : proper_matrix (mkMatrix (IFloat (fl "0.5")) (IInt 16777217) (IInt 0) (IInt (-2147483648)) (IInt 2147483647) (IInt 0)) /\
  f32_of_iof (IInt 16777217) = f32_of_Z 16777216 /\
  (forall d, proper_iof (IFloat (f32_of_f64 d)) /\ f32_of_iof (IFloat (f32_of_f64 d)) = f32_of_f64 d).
Proof.
  split; [|split; [vm_compute; reflexivity|]].
  - unfold proper_matrix, proper_iof. cbn. repeat split; try lia.
  - intros d. split; [apply f32_of_f64_valid|reflexivity].
Qed.

(** * C65: guidelines and colors as property lists *)
(** Exactly these keys in this order, with these values; the reals have the value of the
    guideline's numbers. *)
Theorem C65_guideline_entries : forall (PD : Type) (g : guideline PD),
  map fst (guideline_plist g) =
    [lit "x"; lit "y"; lit "angle"] ++ (match gl_name g with Some _ => [lit "name"] | None => [] end) ++
    (match gl_color g with Some _ => [lit "color"] | None => [] end) /\
  (exists dx dy da, pl_get (guideline_plist g) (lit "x") = Some (PReal dx) /\ pl_get (guideline_plist g) (lit "y") = Some (PReal dy) /\
    pl_get (guideline_plist g) (lit "angle") = Some (PReal da) /\
    (forall q, valid32 (gl_x g) = true -> same_value (gl_x g) q -> same_value dx q) /\
    (forall q, valid32 (gl_y g) = true -> same_value (gl_y g) q -> same_value dy q) /\
    (forall q, iof_value (gl_angle g) q -> same_value da q)) /\
  pl_get (guideline_plist g) (lit "name") = option_map PString (gl_name g) /\
  match gl_color g with
  | None => pl_get (guideline_plist g) (lit "color") = None
  | Some c => exists dr dg db da, pl_get (guideline_plist g) (lit "color") = Some (PArray [PReal dr; PReal dg; PReal db; PReal da]) /\
      (forall q, iof_value (cr c) q -> same_value dr q) /\ (forall q, iof_value (cg c) q -> same_value dg q) /\
      (forall q, iof_value (cb c) q -> same_value db q) /\ (forall q, iof_value (ca c) q -> same_value da q)
  end.
Proof.
  intros PD g. unfold guideline_plist. destruct (gl_name g) as [n|], (gl_color g) as [c|]; cbn;
    (split; [reflexivity|]); (split; [do 3 eexists; repeat split; eauto using f64_value, iof64_value|]);
    (split; [reflexivity|]); try reflexivity; do 4 eexists; repeat split; eauto using iof64_value.
Qed.
Print Assumptions C65_guideline_entries.

(** The identifier is not among them, so two guidelines that differ only in it are the same. *)
Theorem C65_identifier_refuted : exists (g g' : guideline unit), gl_identifier g <> gl_identifier g' /\ guideline_plist g = guideline_plist g'.
Proof.
  exists (mkGuideline (fl "1") (fl "2") (IInt 45) None None (Some (lit "a")) tt), (mkGuideline (fl "1") (fl "2") (IInt 45) None None (Some (lit "b")) tt).
  split; [discriminate|reflexivity].
Qed.
Print Assumptions C65_identifier_refuted.
Example C65_case : iof_value (IInt 45) (inject_Z 45) /\ iof_value (IFloat (fl "2.5")) (5 # 2) /\
  map fst (guideline_plist (mkGuideline (fl "1") (fl "2") (IInt 45) (Some (lit "n")) (Some (mkColor (IInt 1) (IInt 0) (IInt 0) (IInt 1))) None tt)) =
  map lit ["x"; "y"; "angle"; "name"; "color"]%string.
Proof.
  split; [|split; [|reflexivity]].
  - split; [cbn; lia|]. reflexivity.
  - split; [vm_compute; reflexivity|]. eexists. split; [vm_compute; reflexivity|vm_compute; reflexivity].
Qed.

(** * C66: glyphs to and from text *)
Section C66.
Context (L : numlib) {PD PL : Type} (pd0 : PD) (P : plistlib PL) (dbg : bool).
Context {T : Type} (parse : T -> option element) (print : element -> option T).

(** The conversions give what the functions give, and panic exactly where those fail. *)
Theorem C66_conversions : forall (t : T) (g : glif PD PL),
  (forall g', glif_from_text L pd0 P parse t = Ok g' <-> read_text L pd0 P parse t = Ok g') /\
  (glif_from_text L pd0 P parse t = Panic <-> forall g', read_text L pd0 P parse t <> Ok g') /\
  (forall t', text_from_glif L P dbg print g = Ok t' <-> write_text L P dbg print g = Ok t') /\
  (text_from_glif L P dbg print g = Panic <-> forall t', write_text L P dbg print g <> Ok t').
Proof.
  intros t g. unfold glif_from_text, text_from_glif.
  destruct (read_text L pd0 P parse t) as [x|e|] eqn:E1; destruct (write_text L P dbg print g) as [y|e'|] eqn:E2;
    repeat split; intros; try congruence; try discriminate; try (exfalso; eapply H; reflexivity).
Qed.

(** Text written for a glyph is read back to that glyph, if the XML library gives back what it
    was given, the tree of this glyph, as far as a reader of glyphs can tell. *)
Theorem C66_text_restored : forall g : glif PD PL,
  (forall f, f32_of_iof (iof_of_f32 L f) = f) -> glyph_ok L P g ->
  (forall e, glif_xml L P dbg g = Ok e -> exists t e', print e = Some t /\ parse t = Some e' /\ glyph_alike e e') ->
  exists t g', text_from_glif L P dbg print g = Ok t /\ glif_from_text L pd0 P parse t = Ok g' /\ glyph_restored g g'.
Proof.
  intros g HL Hok HX. destruct (C24_glyph_restored L PD PL pd0 P dbg g HL Hok) as (e & g' & H1 & H2 & H3). destruct (HX e H1) as (t & e' & Ht & He & Ha).
  exists t, g'. unfold text_from_glif, glif_from_text, write_text, read_text. rewrite H1. cbn [bind]. rewrite Ht, He. cbn [ok_or bind].
  rewrite <- (C26_order_of_kinds L PD PL pd0 P pedantry_default _ _ Ha), H2. auto.
Qed.

(** * C67: saving *)
Context (steps : T -> list T) (interrupted : path -> T -> option nat).
Local Notation save := (write_to_filename L P dbg print steps interrupted).
Local Notation crash := (write_crashed L P dbg print steps).

(** Success: the file holds the text of the glyph and no other file is touched. *)
Theorem C67_saved : forall files (g : glif PD PL) fn files', save files g fn = (Ok tt, files') ->
  exists t, write_text L P dbg print g = Ok t /\ files' fn = Some t /\ forall p, p <> fn -> files' p = files p.
Proof.
  intros files g fn files'. unfold write_to_filename. destruct (write_text L P dbg print g) as [t|e|]; [|discriminate|discriminate].
  unfold fs_write. destruct (interrupted fn t); [discriminate|]. intros H. injection H as <-. exists t. unfold set_file. split; [reflexivity|]. split.
  - destruct (list_eq_dec (list_eq_dec N.eq_dec) fn fn); [reflexivity|congruence].
  - intros p Hp. destruct (list_eq_dec (list_eq_dec N.eq_dec) p fn); [congruence|reflexivity].
Qed.
(** ... and when the glyph can be written and the disk makes no trouble it does succeed. *)
Theorem C67_succeeds : forall files (g : glif PD PL) fn t, write_text L P dbg print g = Ok t -> interrupted fn t = None ->
  exists files', save files g fn = (Ok tt, files').
Proof. intros files g fn t H1 H2. unfold write_to_filename, fs_write. rewrite H1, H2. eauto. Qed.

(** When the disk fails on the way, that is an error, not a panic, and the files are left as if the
    machine had stopped there. *)
Theorem C67_disk_fails : forall files (g : glif PD PL) fn t k, write_text L P dbg print g = Ok t -> interrupted fn t = Some k ->
  save files g fn = (Err EXmlWrite, crash files g fn k).
Proof. intros files g fn t k H1 H2. unfold write_to_filename, write_crashed, fs_write. now rewrite H1, H2. Qed.

(** A glyph that cannot be turned into text: every file stays as it was. *)
Theorem C67_unwritable_glyph : forall files (g : glif PD PL) fn, (forall t, write_text L P dbg print g <> Ok t) ->
  (forall e, write_text L P dbg print g = Err e <-> fst (save files g fn) = Err e) /\
  (write_text L P dbg print g = Panic <-> fst (save files g fn) = Panic) /\
  fst (save files g fn) <> Ok tt /\ snd (save files g fn) = files /\ forall k, crash files g fn k = files.
Proof.
  intros files g fn H. unfold write_to_filename, write_crashed. destruct (write_text L P dbg print g) as [t|e|]; [now destruct (H t)| |]; cbn [fst snd].
  - split; [intros e'; split; intros X; congruence|]. repeat split; discriminate.
  - split; [intros e'; split; intros X; discriminate|]. repeat split; discriminate.
Qed.

(** Whatever happens, success, failure or a stop at any moment, no other file changes. *)
Theorem C67_other_files : forall files (g : glif PD PL) fn p, p <> fn ->
  snd (save files g fn) p = files p /\ forall k, crash files g fn k p = files p.
Proof.
  intros files g fn p Hp. assert (forall t k, under_way steps files fn t k p = files p) as U.
  { intros t k. unfold under_way. destruct (rev (firstn k (steps t))); [reflexivity|]. unfold set_file. destruct (list_eq_dec (list_eq_dec N.eq_dec) p fn); [congruence|reflexivity]. }
  unfold write_to_filename, write_crashed. destruct (write_text L P dbg print g) as [t|e|]; [|split; reflexivity|split; reflexivity]. split; [|intros k; apply U].
  unfold fs_write. destruct (interrupted fn t) as [k|]; [apply U|]. cbn. unfold set_file. destruct (list_eq_dec (list_eq_dec N.eq_dec) p fn); [congruence|reflexivity].
Qed.

(** After a stop or a failure the file is as before or holds one of the contents the operating
    system puts in it on the way. *)
Theorem C67_interrupted : forall files (g : glif PD PL) fn t, write_text L P dbg print g = Ok t ->
  (forall k, crash files g fn k fn = files fn \/ exists c, In c (steps t) /\ crash files g fn k fn = Some c) /\
  (forall e files', save files g fn = (Err e, files') -> files' fn = files fn \/ exists c, In c (steps t) /\ files' fn = Some c).
Proof.
  intros files g fn t Ht. assert (forall k, under_way steps files fn t k fn = files fn \/ exists c, In c (steps t) /\ under_way steps files fn t k fn = Some c) as U.
  { intros k. unfold under_way. destruct (rev (firstn k (steps t))) as [|c l] eqn:E; [now left|right]. exists c. split.
    - assert (In c (firstn k (steps t))) as I by (rewrite in_rev, E; now left). rewrite <- (firstn_skipn k (steps t)). apply in_or_app. now left.
    - unfold set_file. destruct (list_eq_dec (list_eq_dec N.eq_dec) fn fn); [reflexivity|congruence]. }
  unfold write_crashed, write_to_filename. rewrite Ht. split; [exact U|]. intros e files'. unfold fs_write. destruct (interrupted fn t) as [k|]; [|discriminate]. intros H. injection H as _ <-. apply U.
Qed.
End C66.
Print Assumptions C66_conversions.
Print Assumptions C66_text_restored.
Print Assumptions C67_saved.
Print Assumptions C67_succeeds.
Print Assumptions C67_disk_fails.
Print Assumptions C67_unwritable_glyph.
Print Assumptions C67_other_files.
Print Assumptions C67_interrupted.

(** "After a stop the file holds the old or the new glyph" is false: `fs::write` empties the
    file first and then appends. *)
Definition appending (t : str) : list str := map (fun k => firstn k t) (seq 0 (S (List.length t))).
Definition printed (_ : element) : option str := Some (lit "<glyph/>").
Theorem C67_old_or_new_refuted : exists (files : path -> option str) (fn : path) (k : nat) (t : str),
  files fn = Some (lit "old") /\ write_text rust_num no_plist false printed ex_glyph = Ok t /\
  write_crashed rust_num no_plist false printed appending files ex_glyph fn k fn <> files fn /\
  write_crashed rust_num no_plist false printed appending files ex_glyph fn k fn <> Some t.
Proof.
  exists (fun _ => Some (lit "old")), [lit "A_.glif"], 1, (lit "<glyph/>"). split; [reflexivity|]. split; [vm_compute; reflexivity|]. split; vm_compute; discriminate.
Qed.
Print Assumptions C67_old_or_new_refuted.
Example C66_case : glyph_ok rust_num no_plist ex_glyph /\
  (forall e : element, exists t e', Some e = Some t /\ Some t = Some e' /\ glyph_alike e e').
Proof.
  split; [exact ex_glyph_ok|]. intros e. exists e, e. split; [reflexivity|]. split; [reflexivity|]. apply alike_same_children; reflexivity.
Qed.
Example C67_case : exists files', write_to_filename rust_num no_plist false printed appending (fun _ _ => None) (fun _ => None) ex_glyph [lit "A_.glif"] = (Ok tt, files').
Proof. apply (C67_succeeds _ _ _ _ _ _ _ _ _ (lit "<glyph/>")); [vm_compute; reflexivity|reflexivity]. Qed.

(** * C68: flattening an MFEK glyph *)
(** The result is that of the plain glyph with the same components; it is put beside the layers,
    which stay as they are, like everything else but the components. *)
Theorem C68_mfek_flattened : forall (L : numlib) (PD PL H T : Type) (pd0 : PD) (P : plistlib PL) (files : path -> option T) parse fuel rects
  (m : mglif PD H) (g : glif PD PL), g_components g = mg_components m ->
  match flattened L pd0 P files parse fuel rects g, mfek_flattened L pd0 P files parse fuel rects m with
  | None, None => True
  | Some (Err e), Some (Err e') => e = e'
  | Some Panic, Some Panic => True
  | Some (Ok (g', rs)), Some (Ok (m', rs')) =>
      mg_flattened m' = g_outline g' /\ rs' = rs /\ mg_components m' = g_components g' /\
      mg_layers m' = mg_layers m /\ mg_history m' = mg_history m /\ mg_anchors m' = mg_anchors m /\ mg_component_rects m' = mg_component_rects m /\
      mg_guidelines m' = mg_guidelines m /\ mg_width m' = mg_width m /\ mg_unicode m' = mg_unicode m /\ mg_name m' = mg_name m /\
      mg_note m' = mg_note m /\ mg_filename m' = mg_filename m
  | _, _ => False
  end.
Proof.
  intros L PD PL H T pd0 P files parse fuel rects m g E. unfold flattened, mfek_flattened. rewrite E.
  destruct (build_forest L pd0 P files parse fuel (mg_components m)) as [[f|e|]|]; auto.
  destruct (flatten_forest f []) as [o rs]. cbn. repeat split.
Qed.
Print Assumptions C68_mfek_flattened.

(** * C69: names of handles *)
Lemma blank_is c : is_whitespace c = true <-> blank c.
Proof.
  unfold is_whitespace, blank. rewrite !orb_true_iff, !andb_true_iff, !N.leb_le, !N.eqb_eq. cbn [In]. lia.
Qed.
Lemma trim_start_blanks s : after_blanks blank s (trim_start s).
Proof.
  destruct (trim_start_spec s) as (b & H1 & H2 & H3). exists b. split; [assumption|]. split.
  - eapply Forall_impl; [|exact H2]. intros c. apply blank_is.
  - destruct (trim_start s); [exact I|]. now rewrite <- blank_is.
Qed.
Theorem C69_handle_named : forall s : str,
  which_from_str false s <> Panic /\
  (forall t, after_blanks blank s t ->
     match t with
     | [] => which_from_str false s = Ok None
     | c :: _ => (names_A c -> which_from_str false s = Ok (Some WA)) /\ (names_B c -> which_from_str false s = Ok (Some WB)) /\
                 (~ names_A c -> ~ names_B c -> which_from_str false s = Ok (Some Neither))
     end) /\
  (** in debug builds only one-character strings are allowed, and no other letters *)
  (which_from_str true s = Panic <-> ~ exists c, s = [c] /\ (names_A c \/ names_B c \/ blank c \/ c = 0%N)) /\
  (which_from_str true s <> Panic -> which_from_str true s = which_from_str false s).
Proof.
  intros s. assert (forall c, which_of_char false c <> Panic) as NP.
  { intros c. unfold which_of_char. destruct (existsb _ _); [discriminate|]. destruct (existsb _ _); discriminate. }
  assert (forall c, existsb (N.eqb c) [65; 97; 65313; 65345]%N = true <-> names_A c) as KA.
  { intros c. unfold names_A. rewrite existsb_exists. split; [intros (x & Hx & E); apply N.eqb_eq in E; now subst|]. intros Hc. exists c. split; [assumption|apply N.eqb_refl]. }
  assert (forall c, existsb (N.eqb c) [66; 98; 65314; 65346]%N = true <-> names_B c) as KB.
  { intros c. unfold names_B. rewrite existsb_exists. split; [intros (x & Hx & E); apply N.eqb_eq in E; now subst|]. intros Hc. exists c. split; [assumption|apply N.eqb_refl]. }
  assert (forall c, names_A c -> ~ names_B c) as AB.
  { intros c HA HB. unfold names_A, names_B in *. cbn in HA, HB. lia. }
  split; [|split; [|split]].
  - unfold which_from_str. cbn [andb]. destruct (trim_start s) as [|c t]; [discriminate|]. specialize (NP c). destruct (which_of_char false c); cbn; congruence.
  - intros t Ht. assert (trim_start s = t) as Et by (apply (after_blanks_unique blank s); [apply trim_start_blanks|assumption]).
    unfold which_from_str. cbn [andb]. rewrite Et. destruct t as [|c t]; [reflexivity|]. unfold which_of_char.
    specialize (KA c). specialize (KB c). destruct (existsb _ [65; 97; 65313; 65345]%N), (existsb _ [66; 98; 65314; 65346]%N); cbn [bind andb];
      repeat split; intros; try reflexivity; exfalso; try (now apply (AB c); [apply KA|apply KB]);
      try (now apply H, KA); try (now apply H0, KB); try (now apply KA in H); try (now apply KB in H); try (apply (AB c); [now apply KA|assumption]); try (apply KB in H; discriminate).
  - unfold which_from_str. cbn [andb]. destruct s as [|c [|d s]]; cbn [List.length Nat.eqb negb].
    + split; [|reflexivity]. intros _ (c & E & _). discriminate.
    + cbn [trim_start]. pose proof (blank_is c) as Hb. destruct (is_whitespace c) eqn:W.
      * split; [discriminate|]. intros H. destruct H. exists c. split; [reflexivity|]. right. right. left. now apply Hb.
      * unfold which_of_char. specialize (KA c). specialize (KB c). destruct (existsb _ [65; 97; 65313; 65345]%N).
        { split; [discriminate|]. intros H. destruct H. exists c. split; [reflexivity|]. left. now apply KA. }
        destruct (existsb _ [66; 98; 65314; 65346]%N).
        { split; [discriminate|]. intros H. destruct H. exists c. split; [reflexivity|]. right. left. now apply KB. }
        cbn [andb]. destruct (N.eqb_spec c 0) as [->|N0]; cbn [negb bind].
        { split; [discriminate|]. intros H. destruct H. exists 0%N. auto. }
        split; [|reflexivity]. intros _ (c' & [= <-] & [H|[H|[H|H]]]); [apply KA in H; discriminate|apply KB in H; discriminate|apply Hb in H; discriminate|congruence].
    + split; [|reflexivity]. intros _ (c' & E & _). discriminate.
  - unfold which_from_str. destruct (true && negb (Nat.eqb (List.length s) 1)); [congruence|]. cbn [andb]. destruct (trim_start s) as [|c t]; [reflexivity|]. intros H.
    unfold which_of_char in *. destruct (existsb _ [65; 97; 65313; 65345]%N); [reflexivity|]. destruct (existsb _ [66; 98; 65314; 65346]%N); [reflexivity|]. cbn [andb] in *.
    destruct (negb (N.eqb c 0)); [cbn in H; congruence|reflexivity].
Qed.
Print Assumptions C69_handle_named.
Example C69_case : after_blanks blank (lit "  b") (lit "b") /\ which_from_str false (lit "  b") = Ok (Some WB) /\ which_from_str true (lit "  b") = Panic /\
  which_from_str true (lit "a") = Ok (Some WA).
Proof.
  split; [|repeat split; vm_compute; reflexivity]. exists (lit "  "). split; [reflexivity|]. split; [repeat (apply Forall_cons; [unfold blank; cbn; tauto|]); apply Forall_nil|]. cbn. intros H. unfold blank in H. cbn in H. lia.
Qed.
