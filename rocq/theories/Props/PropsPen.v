(** C84, C85 and C86: whole outlines, pen operations and image files; the exact extent of C38
    and C39; more about C51, C52, C57, C08. *)
Require Import Coq.Strings.String Coq.Lists.List Coq.NArith.NArith Coq.ZArith.ZArith Coq.Arith.Arith Coq.Bool.Bool Coq.QArith.QArith Coq.Floats.SpecFloat Coq.micromega.Lia Coq.micromega.Lqa.
Require Import Verif.Model.Base Verif.Model.Text Verif.Model.Float Verif.Model.Num Verif.Model.RustNum Verif.Model.Point
  Verif.Model.Contour Verif.Model.Names Verif.Model.Color Verif.Model.Parts Verif.Model.Component
  Verif.Model.Refigure Verif.Model.Reverse Verif.Model.Penops Verif.Model.Kurbo Verif.Model.Image
  Verif.Model.Mpoint Verif.Model.Mfek Verif.Model.Skia
  Verif.Spec.TextSpec Verif.Spec.ContourSpec Verif.Spec.PathSpec Verif.Spec.ImageSpec Verif.Spec.MfekSpec Verif.Spec.AccuracySpec
  Verif.Facts.NamesFacts Verif.Facts.PathFacts Verif.Facts.ColorFacts Verif.Facts.CreateFacts Verif.Facts.FloatFacts Verif.Facts.MoreFacts Verif.Props.PropsContour Verif.Props.PropsSkia.
Import ListNotations.
Local Open Scope nat_scope.
Local Open Scope list_scope.

(** * C38, C39: when the pen draws the contour *)

(** With no two neighbouring points in the same place, the operations of a closed contour draw
    its segments exactly if these are all lines or all curves. *)
Theorem C38_closed_draws_exact : forall (PD : Type) (L : numlib) (c c' : contour PD) ops,
  closed c -> into_pen_operations L c = Ok (ops, c') ->
  (forall p t, c' = p :: t -> spread L (c' ++ [p])) ->
  (draws None ops (map (look L) (closed_segments c')) <-> one_kind (closed_segments c')).
Proof. intros PD L c c' ops. apply closed_drawn_iff. Qed.
Print Assumptions C38_closed_draws_exact.

(** For an open contour, exactly if it is a single curve. *)
Theorem C39_open_draws_exact : forall (PD : Type) (L : numlib) (c c' : contour PD) ops,
  opened c -> into_pen_operations L c = Ok (ops, c') -> spread L c' ->
  (draws None ops (map (look L) (open_segments c')) <-> exists p q, c' = [p; q] /\ pptype q = Curve).
Proof. intros PD L c c' ops. apply open_drawn_iff. Qed.
Print Assumptions C39_open_draws_exact.

Definition at_ (x y : Z) : handle := At (f32_of_Z x) (f32_of_Z y).
Definition pt (x y : Z) (a b : handle) (t : ptype) : point unit := mkPoint (f32_of_Z x) (f32_of_Z y) a b None t false None.
Definition ex_triangle : contour unit := [pt 0 0 Colocated Colocated Line; pt 9 0 Colocated Colocated Line; pt 0 9 Colocated Colocated Line].
Definition ex_bow : contour unit := [pt 0 0 (at_ 1 5) Colocated Move; pt 9 0 Colocated (at_ 8 5) Curve].
Definition places (c : contour unit) : list (f32 * f32) := map (fun p => (px p, py p)) c.
Fixpoint apart (l : list (f32 * f32)) : bool :=
  match l with
  | a :: (b :: _) as t => negb (feq (fst a) (fst b) && feq (snd a) (snd b)) && apart t
  | _ => true
  end.
Lemma apart_spread (c : contour unit) : (forall p, In p c -> is_nan (px p) = false /\ is_nan (py p) = false) ->
  apart (places c) = true -> spread rust_num c.
Proof.
  induction c as [|p [|q c] IH]; intros Hn H i a b Ea Eb; try (destruct i as [|[|i]]; discriminate).
  change (negb (feq (px p) (px q) && feq (py p) (py q)) && apart (places (q :: c)) = true) in H. apply andb_true_iff in H as [H1 H2].
  destruct i as [|i]; cbn in Ea, Eb.
  - injection Ea as <-. injection Eb as <-. intros E. injection E as E1 E2. rewrite E1, E2 in H1. destruct (Hn q) as [N1 N2]; [right; now left|].
    rewrite !feq_refl in H1 by assumption. discriminate.
  - apply (IH (fun x Hx => Hn x (or_intror Hx)) H2 i a b Ea Eb).
Qed.
Example C38_exact_case : exists ops, closed ex_triangle /\ into_pen_operations rust_num ex_triangle = Ok (ops, ex_triangle) /\
  (forall p t, ex_triangle = p :: t -> spread rust_num (ex_triangle ++ [p])) /\ one_kind (closed_segments ex_triangle).
Proof.
  eexists. split; [do 3 eexists; split; [reflexivity|discriminate]|]. split; [vm_compute; reflexivity|]. split.
  - intros p t E. injection E as <- _. apply apart_spread; [intros x [<-|[<-|[<-|[<-|[]]]]]; split; reflexivity|vm_compute; reflexivity].
  - intros s s' [<-|[<-|[<-|[]]]] [<-|[<-|[<-|[]]]]; reflexivity.
Qed.
Example C39_exact_case : exists ops, opened ex_bow /\ into_pen_operations rust_num ex_bow = Ok (ops, ex_bow) /\ spread rust_num ex_bow.
Proof.
  eexists. split; [do 3 eexists; split; reflexivity|]. split; [vm_compute; reflexivity|].
  apply apart_spread; [intros x [<-|[<-|[]]]; split; reflexivity|vm_compute; reflexivity].
Qed.

(** * C84 Whole outlines *)

(** Reversing an outline reverses each contour in its place. *)
Theorem C84_reversed_each : forall (PD : Type) (dbg : bool) (o o' : outline PD),
  outline_to_reversed dbg o = Ok o' <-> Forall2 (fun c c' => to_reversed dbg c = Ok c') o o'.
Proof. intros. apply mapM_ok. Qed.
Print Assumptions C84_reversed_each.

(** It fails exactly if some contour is empty or, in debug builds, an open contour has handles
    beyond its ends; there is no other outcome. *)
Theorem C84_reversed_total : forall (PD : Type) (dbg : bool) (o : outline PD),
  (outline_to_reversed dbg o = Panic <->
     exists c, In c o /\ (c = [] \/ (dbg = true /\ opened c /\ ~ clean_ends c))) /\
  (forall e, outline_to_reversed dbg o <> Err e).
Proof.
  intros PD dbg o. destruct (mapM_panic (to_reversed dbg) (fun c => proj2 (C16_reverse_panics_exactly dbg PD c)) o) as [H1 H2].
  split; [|exact H2]. unfold outline_to_reversed. rewrite H1. split; intros (c & Hc & H); exists c; (split; [assumption|]); now apply C16_reverse_panics_exactly.
Qed.
Print Assumptions C84_reversed_total.

(** Reversing an outline of closed contours twice gives it back. *)
Theorem C84_reversed_twice : forall (PD : Type) (dbg : bool) (o : outline PD),
  (forall c, In c o -> c <> [] /\ ~ opened c) ->
  exists o', outline_to_reversed dbg o = Ok o' /\ outline_to_reversed dbg o' = Ok o.
Proof.
  intros PD dbg o H. induction o as [|c o IH]; [exists []; split; reflexivity|].
  destruct IH as (o' & E1 & E2); [intros; apply H; now right|]. destruct (H c (or_introl eq_refl)) as [Hc1 Hc2].
  destruct (C14_reverse_twice_closed dbg PD c Hc1 Hc2) as (c' & E3 & E4). exists (c' :: o').
  unfold outline_to_reversed in *. cbn [mapM]. rewrite E1, E2, E3, E4. split; reflexivity.
Qed.
Print Assumptions C84_reversed_twice.

(** Recomputing the types of an outline never fails and does so for each contour in its place. *)
Theorem C84_refigured : forall (PD : Type) (o : outline PD),
  exists o', refigure_outline o = Ok o' /\ Forall2 (fun c c' => refigure c = Ok c') o o'.
Proof.
  intros PD o. assert (exists o', Forall2 (fun c c' => refigure c = Ok c') o o') as (o' & H).
  { induction o as [|c o (o' & IH)]; [exists []; constructor|]. destruct (C41_refigure_total PD c) as (c' & E). exists (c' :: o'). now constructor. }
  exists o'. split; [now apply mapM_ok|assumption].
Qed.
Print Assumptions C84_refigured.

Example C84_case : exists o', outline_to_reversed true [ex_triangle; ex_bow] = Ok o' /\ o' <> [ex_triangle; ex_bow] /\
  refigure_outline [ex_triangle; ex_bow] = Ok [ex_triangle; ex_bow].
Proof. eexists. split; [vm_compute; reflexivity|]. split; [discriminate|vm_compute; reflexivity]. Qed.

(** * C85 Pen operations *)

(** Simplifying changes an operation exactly if it is a curve with both control points on its
    end, and then into the line to that end. *)
Theorem C85_simplify : forall (L : numlib) (o : penop),
  let flat o := exists a b p, o = CurveTo a b p /\ iof_eqb L (gx p) (gx a) = true /\ iof_eqb L (gy p) (gy a) = true /\
                             iof_eqb L (gx p) (gx b) = true /\ iof_eqb L (gy p) (gy b) = true in
  (forall a b p, o = CurveTo a b p -> flat o -> simplify L o = LineTo p) /\ (~ flat o -> simplify L o = o).
Proof.
  intros L o flat. split.
  - intros a b p -> (a' & b' & p' & [= <- <- <-] & E1 & E2 & E3 & E4). cbn. rewrite E1, E2, E3, E4. reflexivity.
  - intros Hn. destruct o; try reflexivity. cbn. destruct (_ && _ && _ && _) eqn:E; [|reflexivity].
    exfalso. apply Hn. apply andb_true_iff in E as [E E4]. apply andb_true_iff in E as [E E3]. apply andb_true_iff in E as [E1 E2].
    do 3 eexists. split; [reflexivity|]. auto.
Qed.
Print Assumptions C85_simplify.

(** It does not change what is drawn: every point of the curve is on the line, at the
    parameter 1-(1-t)^3, which runs from 0 to 1 with t.  For the float coordinates of outlines. *)
Theorem C85_simplify_same_shape : forall (ax ay bx by_ ex ey : f32) sa na ta sb nb tb se ne te o,
  simplify rust_num (CurveTo (mkGP (IFloat ax) (IFloat ay) sa na ta) (mkGP (IFloat bx) (IFloat by_) sb nb tb)
                             (mkGP (IFloat ex) (IFloat ey) se ne te)) = LineTo o ->
  gx o = IFloat ex /\ gy o = IFloat ey /\
  forall (sx sy vax vay vbx vby vex vey t : Q),
    same_value ax vax -> same_value ay vay -> same_value bx vbx -> same_value by_ vby ->
    same_value ex vex -> same_value ey vey ->
    let u := (1 - (1 - t) * (1 - t) * (1 - t))%Q in
    (cubic_at sx vax vbx vex t == (1 - u) * sx + u * vex)%Q /\
    (cubic_at sy vay vby vey t == (1 - u) * sy + u * vey)%Q.
Proof.
  intros ax ay bx by_ ex ey sa na ta sb nb tb se ne te o H. unfold simplify in H. cbn [gx gy rust_num iof_eqb f32_of_iof] in H.
  destruct (_ && _ && _ && _) eqn:E; [|discriminate]. injection H as <-. split; [reflexivity|]. split; [reflexivity|].
  apply andb_true_iff in E as [E E4]. apply andb_true_iff in E as [E E3]. apply andb_true_iff in E as [E1 E2].
  intros sx sy vax vay vbx vby vex vey t A1 A2 B1 B2 P1 P2 u.
  assert (forall x y vx vy, feq x y = true -> same_value x vx -> same_value y vy -> (vx == vy)%Q) as F.
  { intros x y vx vy Hf (q & Hq & Eq) (r & Hr & Er). rewrite <- Eq, <- Er.
    destruct (feq_true x y Hf) as [->|(s & s' & -> & ->)]; [congruence|]. cbn in Hq, Hr. injection Hq as <-. injection Hr as <-. reflexivity. }
  pose proof (F _ _ _ _ E1 P1 A1) as X1. pose proof (F _ _ _ _ E2 P2 A2) as X2. pose proof (F _ _ _ _ E3 P1 B1) as X3. pose proof (F _ _ _ _ E4 P2 B2) as X4.
  unfold cubic_at, u. rewrite <- X1, <- X2, <- X3, <- X4. split; ring.
Qed.
Print Assumptions C85_simplify_same_shape.

Example C85_simplify_case : exists o, simplify rust_num (CurveTo (mkGP (IFloat (f32_of_Z 3)) (IFloat (f32_of_Z 4)) false None OffCurve)
    (mkGP (IFloat (f32_of_Z 3)) (IFloat (f32_of_Z 4)) false None OffCurve) (mkGP (IFloat (f32_of_Z 3)) (IFloat (f32_of_Z 4)) true None Curve)) = LineTo o.
Proof. eexists. vm_compute. reflexivity. Qed.

(** The list of the operations of several subpaths is split into these, in order. *)
Theorem C85_split : forall ss : list subpath,
  Forall proper_subpath ss -> 2 <= length (concat (map sub_ops ss)) ->
  split_pen_operations (concat (map sub_ops ss)) = Ok (map sub_piece ss).
Proof. exact split_exact. Qed.
Print Assumptions C85_split.

(** A list counts as one contour exactly if there is no MoveTo but possibly the first
    operation; asking panics exactly if a Close has no MoveTo since the Close before. *)
Theorem C85_one_contour : forall l : list penop,
  (length l <= 1 -> penops_is_valid l = Ok true) /\
  (2 <= length l -> stray_close_op l -> penops_is_valid l = Panic) /\
  (2 <= length l -> ~ stray_close_op l -> exists b, penops_is_valid l = Ok b /\
     (b = true <-> forall o, In o (tl l) -> ~ is_move o)).
Proof. exact penops_valid_exact. Qed.
Print Assumptions C85_one_contour.

Definition ex_gp (x y : Z) : glifpoint := mkGP (IInt x) (IInt y) false None Line.
Example C85_split_case : let ss := [mkSub (ex_gp 0 0) [LineTo (ex_gp 1 0); LineTo (ex_gp 0 1)] true; mkSub (ex_gp 5 5) [LineTo (ex_gp 6 5)] false] in
  Forall proper_subpath ss /\ 2 <= length (concat (map sub_ops ss)) /\ penops_is_valid (concat (map sub_ops ss)) = Ok false /\
  penops_is_valid (sub_ops (mkSub (ex_gp 0 0) [LineTo (ex_gp 1 0)] true)) = Ok true.
Proof. cbv zeta. split; [repeat constructor|]. split; [cbn; lia|]. split; reflexivity. Qed.

(** The operations of an open contour with regular coordinates are all valid. *)
Theorem C85_open_valid : forall (PD : Type) (L : numlib) (c c' : contour PD) ops,
  opened c -> into_pen_operations L c = Ok (ops, c') -> regular_contour L c' ->
  Forall (fun o => penop_is_valid o = true) ops.
Proof. intros PD L. apply open_ops_valid. Qed.
Print Assumptions C85_open_valid.

(** Those of a closed contour never are: the first is a MoveTo that is judged by the type of its
    point, which is not Move.  The others are valid. *)
Theorem C85_closed_valid_refuted : forall (PD : Type) (L : numlib) (c c' : contour PD) ops,
  closed c -> into_pen_operations L c = Ok (ops, c') ->
  exists g rest, ops = MoveTo g :: rest /\ penop_is_valid (MoveTo g) = false /\
    (regular_contour L c' -> Forall (fun o => penop_is_valid o = true) rest).
Proof. intros PD L. apply closed_ops_valid. Qed.
Print Assumptions C85_closed_valid_refuted.

(** The default operation moves to the origin and is valid if zero stays a regular number. *)
Theorem C85_default_valid : forall L : numlib, regular (iof_of_f32 L pos_zero) ->
  exists g, penop_default L = MoveTo g /\ at_gp g = (iof_of_f32 L pos_zero, iof_of_f32 L pos_zero) /\
    penop_is_valid (penop_default L) = true.
Proof.
  intros L H. eexists. split; [reflexivity|]. split; [reflexivity|].
  unfold penop_default, penop_is_valid, gp_from_x_y_type. cbn [gptype ptype_eqb andb].
  apply regular_valid; [discriminate|assumption|assumption].
Qed.
Print Assumptions C85_default_valid.

Example C85_valid_case : regular_contour rust_num ex_bow /\ opened ex_bow /\ closed ex_triangle /\ regular_contour rust_num ex_triangle /\ regular (iof_of_f32 rust_num pos_zero).
Proof.
  split; [intros p [<-|[<-|[]]]; repeat split|]. split; [do 3 eexists; split; reflexivity|].
  split; [do 3 eexists; split; [reflexivity|discriminate]|]. split; [intros p [<-|[<-|[<-|[]]]]; repeat split|]. repeat split.
Qed.

(** A kurbo element and its pen operation have the same type and the same points, in the order
    in which the element lists them: the on-curve point first. *)
Theorem C85_kurbo_element : forall (L : numlib) (e : pathel),
  ptype_of_penop (penop_of_pathel L e) = ptype_of_pathel e /\
  map at_gp (penop_points (penop_of_pathel L e)) =
    map (fun k => (iof_of_f32 L (f32_of_f64 (fst k)), iof_of_f32 L (f32_of_f64 (snd k)))) (into_kpoint_vec e) /\
  rev (into_kpoint_vec e) = match e with KMoveTo p => [p] | KLineTo p => [p] | KQuadTo a p => [a; p] | KCurveTo a b p => [a; b; p] | KClosePath => [] end.
Proof. intros L e. destruct e; repeat split. Qed.
Print Assumptions C85_kurbo_element.

(** * C86 The file of an image *)

(** The image of a glyph is read from the directory "images" beside the glyph's directory, and
    carries the matrix and color of the glyph's reference; every way to fail is an error. *)
Theorem C86_image_of_glyph : forall disk (gi : glifimage) (file : option path) (name : str),
  (file = None -> to_image_of disk gi file name = Err (EFilenameNotSet name)) /\
  (file = Some [] \/ (exists dir, file = Some (dir ++ [lit "/"])) -> to_image_of disk gi file name = Err (EFilenameInsane "Failed to parent")) /\
  (forall dir leaf, file = Some (dir ++ [leaf]) -> leaf <> lit "/" ->
     let fn := path_push (dir ++ [lit ".."; lit "images"]) (path_of (os_text (i_filename gi))) in
     (disk fn = None -> to_image_of disk gi file name = Err EImageIo) /\
     (forall v, disk fn = Some v -> exists i, to_image_of disk gi file name = Ok i /\
        im_filename i = fn /\ im_data i = Data v /\ im_state i = Loaded /\ data i = Ok v /\ im_codec i = guess_codec_bytes v /\
        im_matrix i = affine_of_matrix (i_matrix gi) /\ im_color i = i_color gi)).
Proof.
  intros disk gi file name. split; [now intros ->|]. split.
  { intros [->|(dir & ->)]; [reflexivity|]. unfold to_image_of, path_parent. cbn [ok_or bind]. rewrite rev_app_distr. reflexivity. }
  intros dir leaf -> Hleaf fn. unfold to_image_of. cbn [ok_or bind].
  rewrite parent_snoc by assumption. cbn [ok_or bind].
  change (path_of (lit "..")) with [lit ".."]. change (path_of (lit "images")) with [lit "images"].
  rewrite (push_one dir), (push_one (dir ++ _)), <- app_assoc by discriminate. cbn [app]. fold fn. unfold load. cbn [image_new im_filename]. split.
  - intros ->. reflexivity.
  - intros v ->. eexists. split; [reflexivity|]. repeat split.
Qed.
Print Assumptions C86_image_of_glyph.

(** C86: which file that is: an absolute file name is used as it is, any other is looked for in "images", a leading
    "." making no difference; an empty one leads to the directory itself. *)
Theorem C86_which_file : forall disk (gi : glifimage) (dir : path) (leaf name : str) i, leaf <> lit "/" ->
  to_image_of disk gi (Some (dir ++ [leaf])) name = Ok i ->
  (forall q, path_of (os_text (i_filename gi)) = lit "/" :: q -> im_filename i = lit "/" :: q) /\
  (path_of (os_text (i_filename gi)) = [] -> im_filename i = dir ++ [lit ".."; lit "images"]) /\
  (forall q, path_of (os_text (i_filename gi)) = lit "." :: q -> im_filename i = dir ++ [lit ".."; lit "images"] ++ q) /\
  (forall c q, path_of (os_text (i_filename gi)) = c :: q -> c <> lit "/" -> c <> lit "." -> im_filename i = dir ++ [lit ".."; lit "images"] ++ c :: q).
Proof.
  intros disk gi dir leaf name i Hl H. destruct (C86_image_of_glyph disk gi (Some (dir ++ [leaf])) name) as (_ & _ & K). destruct (K dir leaf eq_refl Hl) as [K1 K2]. clear K.
  destruct (disk (path_push (dir ++ [lit ".."; lit "images"]) (path_of (os_text (i_filename gi))))) as [v|] eqn:E; [|rewrite (K1 eq_refl) in H; discriminate].
  destruct (K2 v eq_refl) as (i' & H' & F & _). rewrite H in H'. injection H' as <-. rewrite F. clear.
  assert (forall q, path_absolute q = false -> path_push (dir ++ [lit ".."; lit "images"]) q =
    (dir ++ [lit ".."; lit "images"]) ++ match q with c :: q' => if str_eqb c (lit ".") then q' else q | [] => [] end) as A.
  { intros q Hq. unfold path_push. rewrite Hq. destruct dir; reflexivity. }
  split; [|split; [|split]].
  - intros q ->. reflexivity.
  - intros ->. rewrite A by reflexivity. apply app_nil_r.
  - intros q ->. rewrite A by reflexivity. now rewrite <- app_assoc.
  - intros c q -> N1 N2. rewrite A by (cbn [path_absolute]; now apply Verif.Facts.NamesFacts.str_eqb_neq). rewrite (Verif.Facts.NamesFacts.str_eqb_neq _ _ N2), <- app_assoc. reflexivity.
Qed.
Print Assumptions C86_which_file.

(** C86: in terms of the text in the document: a name without separators is the name of a file in "images"; a text
    that starts with a separator leads anywhere in the file system. *)
Theorem C86_plain_name : forall disk (gi : glifimage) (dir : path) (leaf name : str) i, leaf <> lit "/" ->
  to_image_of disk gi (Some (dir ++ [leaf])) name = Ok i ->
  (forall s, os_text (i_filename gi) = s -> s <> [] -> s <> lit "." -> ~ In 47%N s -> im_filename i = dir ++ [lit ".."; lit "images"; s]) /\
  (forall s, os_text (i_filename gi) = 47%N :: s -> exists q, im_filename i = lit "/" :: q).
Proof.
  intros disk gi dir leaf name i Hl H. destruct (C86_which_file disk gi dir leaf name i Hl H) as (A & _ & _ & B). split.
  - intros s E H1 H2 H3. apply (B s []); [rewrite E; now apply Verif.Facts.PathFacts.path_of_plain|now apply Verif.Facts.PathFacts.plain_not_root|exact H2].
  - intros s E. rewrite E, Verif.Facts.PathFacts.path_of_absolute in A. eexists. now apply A.
Qed.
Print Assumptions C86_plain_name.

(** Opening an image by its file name. *)
Theorem C86_image_of_file : forall disk (fn : path),
  (disk fn = None -> image_of_file disk fn = Err EImageIo) /\
  (forall v, disk fn = Some v -> exists i, image_of_file disk fn = Ok i /\
     im_filename i = fn /\ data i = Ok v /\ im_codec i = guess_codec_bytes v /\ im_color i = None /\
     im_matrix i = mkAffine (f64_of_Z 1) pos_zero pos_zero (f64_of_Z 1) pos_zero pos_zero).
Proof.
  intros disk fn. unfold image_of_file, load. cbn [image_new im_filename]. split; [now intros ->|].
  intros v ->. eexists. split; [reflexivity|]. repeat split.
Qed.
Print Assumptions C86_image_of_file.

Example C86_case : exists i, to_image_of (fun p => if Nat.eqb (length p) 5 then Some [66%N; 77%N] else None)
    (mkImage (Utf8 (lit "a.png")) (mkMatrix (IInt 1) (IInt 0) (IInt 0) (IInt 1) (IInt 0) (IInt 0)) None None)
    (Some [lit "f.ufo"; lit "glyphs"; lit "a.glif"]) (lit "a") = Ok i.
Proof. eexists. vm_compute. reflexivity. Qed.

(** * C51 Names, smoothness and kinds of points *)

(** Asked about A or B, a point says it has a handle exactly if it offers it. *)
Theorem C51_has_handle : forall (PD : Type) (m : mpoint PD) (w : which),
  w <> Neither -> (m_has_handle m w = true <-> offers m w) /\ (offers m w <-> m_get_handle m w <> None).
Proof. intros PD m w H. destruct m, w; cbn; try congruence; repeat split; try tauto; discriminate. Qed.
Print Assumptions C51_has_handle.

(** Asked about neither handle, cubic and hyperbezier points say they have it, though there is
    nothing to get. *)
Theorem C51_has_neither_refuted : forall (PD : Type) (m : mpoint PD),
  m_get_handle m Neither = None /\ (m_has_handle m Neither = true <-> forall q, m <> MQuad q).
Proof.
  intros PD m. destruct m as [p|p|p]; cbn; split; try reflexivity; split; try reflexivity; try discriminate.
  intros H. exfalso. now apply (H p).
Qed.
Print Assumptions C51_has_neither_refuted.

(** Setting the name: hyperbezier points have none; nothing else changes. *)
Theorem C51_set_name : forall (PD : Type) (m : mpoint PD) (n : str),
  let m' := m_set_name m n in
  ((forall h, m <> MHyper h) -> m_get_name m' = Some n) /\
  (forall h, m = MHyper h -> m' = m /\ m_get_name m = None) /\
  m_position m' = m_position m /\ (forall w, m_get_handle m' w = m_get_handle m w) /\
  (forall a b c d e, rest m = (a, b, c, d, e) -> exists a', rest m' = (a', b, c, d, e)).
Proof.
  intros PD m n m'. destruct m as [p|p|p]; cbn; (split; [intros H; try reflexivity; exfalso; now apply (H p)|]); (split; [intros h E; try discriminate; auto|]);
    (split; [reflexivity|]); (split; [now intros []|]); intros a b c d e [= <- <- <- <- <-]; eauto.
Qed.
Print Assumptions C51_set_name.

(** Setting smoothness: only cubic points answer; nothing else changes. *)
Theorem C51_set_smooth : forall (PD : Type) (m : mpoint PD) (b : bool),
  let m' := m_set_smooth m b in
  (forall p, m = MCubic p -> m_get_smooth m' = Some b) /\
  ((forall p, m <> MCubic p) -> m' = m /\ m_get_smooth m = None) /\
  m_position m' = m_position m /\ (forall w, m_get_handle m' w = m_get_handle m w) /\ m_get_name m' = m_get_name m /\
  (forall n t k s d, rest m = (n, t, k, s, d) -> exists s', rest m' = (n, t, k, s', d)).
Proof.
  intros PD m b m'. destruct m as [p|p|p]; cbn; (split; [intros q E; try discriminate; reflexivity|]);
    (split; [intros H; try (split; reflexivity); exfalso; now apply (H p)|]);
    (split; [reflexivity|]); (split; [now intros []|]); (split; [reflexivity|]); intros n t k s d [= <- <- <- <- <-]; eauto.
Qed.
Print Assumptions C51_set_smooth.

(** A point is of exactly one of the three kinds, and gives itself back. *)
Theorem C51_kind : forall (PD : Type) (m : mpoint PD),
  (forall p, m_cubic m = Some p <-> m = MCubic p) /\ (forall p, m_quad m = Some p <-> m = MQuad p) /\
  (forall p, m_hyper m = Some p <-> m = MHyper p).
Proof. intros PD m. destruct m; cbn; repeat split; congruence. Qed.
Print Assumptions C51_kind.

(** New quadratic and hyperbezier points are where they were asked to be and have no handle
    placed, name or data. *)
Theorem C51_new_points : forall (PD : Type) (x y : f32) (t : ptype) (k : hyper_kind) (s : bool),
  let q : mpoint PD := MQuad (q_from_x_y_type x y t) in
  let h : mpoint PD := MHyper (h_new x y k s) in
  m_position q = (x, y) /\ m_position h = (x, y) /\ rest q = (None, Some t, None, false, None) /\ rest h = (None, None, Some k, s, None) /\
  (forall w f, m_get_handle q w = Some f -> f = Colocated) /\ (forall w f, m_get_handle h w = Some f -> f = Colocated).
Proof. intros PD x y t k s q h. repeat split; intros [] f; cbn; congruence. Qed.
Print Assumptions C51_new_points.

(** A handle's name is valid exactly if it has an opposite other than itself. *)
Theorem C51_which : forall w : which,
  (which_is_valid w = true <-> which_opposite w <> w) /\ which_opposite (which_opposite w) = w.
Proof. intros []; cbn; repeat split; congruence. Qed.
Print Assumptions C51_which.

(** * C52 All contours as one path *)
Theorem C52_combined : forall (PD : Type) (tx ty : f32 -> f32) (o : outline PD) ps,
  to_skia_paths tx ty o = Ok ps ->
  exists op cl, combined ps = concat op ++ concat cl /\
    Forall2 (fun c s => to_skia_path tx ty c = Some s) (filter (fun c => match c with p :: _ => ptype_eqb (pptype p) Move | [] => false end) o) op /\
    Forall2 (fun c s => to_skia_path tx ty c = Some s) (filter (fun c => match c with p :: _ => negb (ptype_eqb (pptype p) Move) | [] => false end) o) cl.
Proof.
  intros PD tx ty o ps H. destruct (C52_outline PD tx ty o) as (ps' & op & cl & E & F1 & F2 & E1 & E2).
  assert (ps' = ps) as -> by congruence. exists op, cl. split; [|auto]. unfold combined. rewrite E1, E2.
  destruct op, cl; reflexivity.
Qed.
Print Assumptions C52_combined.
Example C52_combined_case : exists ps, to_skia_paths (fun x => x) (fun y => y) [ex_triangle; ex_bow] = Ok ps /\ List.length (combined ps) = 6.
Proof. eexists. split; [vm_compute; reflexivity|reflexivity]. Qed.

(** * C57 The information file of a layer *)
(** There is one exactly if the layer has a color, and it holds that color's text alone, from
    which the color is read back. *)
Theorem C57_layerinfo : forall (PD : Type) (L : numlib) (l : layer PD),
  (to_layerinfo L l = None <-> l_color l = None) /\
  (forall c, l_color l = Some c -> exists text, to_layerinfo L l = Some (PDict [(lit "color", PString text)]) /\
     ((forall i, In i [cr c; cg c; cb c; ca c] -> iof_read L (iof_show L i) = Some i /\ ~ In comma (iof_show L i)) -> color_parse L text = Ok c)).
Proof.
  intros PD L l. unfold to_layerinfo. split; [destruct (l_color l); split; congruence|].
  intros c ->. eexists. split; [reflexivity|]. intros H. now apply color_round_trip.
Qed.
Print Assumptions C57_layerinfo.

(** * C08 Colors from floats *)
(** Four floats give the color with these components, if numbers made of floats keep them. *)
Theorem C08_floats : forall (L : numlib) (r g b a : f32),
  (forall f, In f [r; g; b; a] -> f32_of_iof (iof_of_f32 L f) = f) ->
  color_to_f32s (color_of_f32s L r g b a) = (r, g, b, a).
Proof. intros L r g b a H. unfold color_to_f32s, color_of_f32s. cbn. rewrite !H by (cbn; tauto). reflexivity. Qed.
Print Assumptions C08_floats.
Example C08_floats_case : forall f, In f [f32_of_Z 1; pos_zero] -> f32_of_iof (iof_of_f32 rust_num f) = f.
Proof. intros f _. reflexivity. Qed.

(** C31: a component refers to a glyph exactly if its base is the name of the glyph. *)
Theorem C31_refers_to : forall (c : glifcomponent) (name : str), component_refers_to c name = true <-> c_base c = name.
Proof. intros c name. apply str_eqb_eq. Qed.
Print Assumptions C31_refers_to.
