(** Properties C37-C40, C43: pen operations, kurbo paths, degree elevation. *)
Require Import Coq.Lists.List Coq.Arith.Arith Coq.Bool.Bool Coq.ZArith.ZArith Coq.QArith.QArith Coq.Floats.SpecFloat Coq.micromega.Lia.
Require Import Verif.Model.Base Verif.Model.Float Verif.Model.Num Verif.Model.RustNum Verif.Model.Point
  Verif.Model.Contour Verif.Model.Refigure Verif.Model.Penops Verif.Model.Kurbo
  Verif.Spec.ContourSpec Verif.Spec.PathSpec Verif.Facts.ContourFacts Verif.Facts.RefigureFacts
  Verif.Facts.PenFacts Verif.Facts.KurboFacts.
Import ListNotations.
Local Open Scope nat_scope.

(** Examples. *)
Definition xy (x y : Z) : f32 * f32 := (f32_of_Z x, f32_of_Z y).
Definition cu (a b c d e f : Z) : cubic := mkCubic (xy a b) (xy c d) (xy e f).
Definition ex_loop : closed_path :=
  mkLoop (xy 0 0) [cu 10 0 90 10 100 0; cu 110 20 60 90 50 80; cu 40 70 (-5) 10 0 0].
Definition ex_loop2 : closed_path :=
  mkLoop (xy 200 0) [cu 210 5 290 10 300 0; cu 310 20 190 90 200 0].
(** One whose first segment is straight, with its control points on its ends. *)
Definition ex_straight : closed_path :=
  mkLoop (xy 0 0) [cu 0 0 100 0 100 0; cu 110 20 60 90 50 80; cu 40 70 (-5) 10 0 0].
Definition kpt (x y : Z) (a b : handle) (t : ptype) : point unit :=
  mkPoint (f32_of_Z x) (f32_of_Z y) a b None t false None.
Definition kat (x y : Z) : handle := At (f32_of_Z x) (f32_of_Z y).

Ltac kept_tac := repeat split; vm_compute; reflexivity.
Lemma ex_loop_ok : closed_cubic rust_num ex_loop.
Proof. split; [cbn; lia|]. split; [kept_tac|]. split; [kept_tac|]. repeat (constructor; [kept_tac|]). constructor. Qed.
Lemma ex_loop2_ok : closed_cubic rust_num ex_loop2.
Proof. split; [cbn; lia|]. split; [kept_tac|]. split; [kept_tac|]. repeat (constructor; [kept_tac|]). constructor. Qed.
Lemma ex_straight_ok : closed_cubic rust_num ex_straight.
Proof. split; [cbn; lia|]. split; [kept_tac|]. split; [kept_tac|]. repeat (constructor; [kept_tac|]). constructor. Qed.

(** C37: a path of one or more closed subpaths, each of two or more cubic segments, becomes one
    contour per subpath with one point per segment. *)
Theorem C37_closed_from_kurbo : forall (PD : Type) (L : numlib) (ls : list closed_path),
  Forall (closed_cubic L) ls -> ls <> [] ->
  outline_from_kurbo (PD := PD) L (concat (map elements ls)) = Ok (map contour_of ls).
Proof. intros. now apply from_kurbo_closed. Qed.
Print Assumptions C37_closed_from_kurbo.

(** C37: and back again, provided that no segment but possibly the last of a subpath has both
    its control points on its ends; signs of zeros may change. *)
Theorem C37_closed_there_and_back : forall (PD : Type) (L : numlib) (ls : list closed_path),
  Forall (closed_cubic L) ls -> ls <> [] ->
  Forall (fun l => bent (l_start l) (removelast (l_segs l))) ls ->
  exists o els, outline_from_kurbo (PD := PD) L (concat (map elements ls)) = Ok o /\
    outline_into_kurbo_vec L o = Ok els /\
    Forall2 same_element els (concat (map elements ls)).
Proof.
  intros PD L ls H Hne Hb. destruct (back_all L (PD := PD) ls H Hb) as (els & E & F).
  exists (map contour_of ls), els. split; [now apply from_kurbo_closed|]. auto.
Qed.
Print Assumptions C37_closed_there_and_back.

(** The proviso is exactly what is needed. *)
Theorem C37_closed_there_and_back_exact : forall (PD : Type) (L : numlib) (l : closed_path),
  closed_cubic L l ->
  ((exists els, contour_into_kurbo_vec L (contour_of (PD := PD) l) = Ok els /\
      Forall2 same_element els (elements l)) <->
   bent (l_start l) (removelast (l_segs l))).
Proof.
  intros PD L l H. split.
  - intros (els & E & F). eapply back_only_bent; eassumption.
  - intros Hb. now apply back_closed.
Qed.
Print Assumptions C37_closed_there_and_back_exact.

(** C37 as stated is false: a straight segment written as a curve makes the next segment
    disappear. *)
Theorem C37_closed_there_and_back_refuted : exists (l : closed_path) (o : outline unit) els,
  closed_cubic rust_num l /\ outline_from_kurbo rust_num (elements l) = Ok o /\
  outline_into_kurbo_vec rust_num o = Ok els /\ ~ Forall2 same_element els (elements l).
Proof.
  exists ex_straight, [contour_of ex_straight]. pose proof ex_straight_ok as H.
  pose proof (from_kurbo_closed (PD := unit) rust_num [ex_straight] (Forall_cons _ H (Forall_nil _)) ltac:(discriminate)) as E.
  cbn [map concat] in E. rewrite app_nil_r in E.
  destruct (outline_into_kurbo_vec rust_num [contour_of (PD := unit) ex_straight]) as [els| |] eqn:Eb;
    [|vm_compute in Eb; discriminate|vm_compute in Eb; discriminate].
  exists els. repeat split; try assumption; try apply H. intros F.
  assert (contour_into_kurbo_vec rust_num (contour_of (PD := unit) ex_straight) = Ok els) as Ec.
  { cbn [outline_into_kurbo_vec] in Eb. destruct (contour_into_kurbo_vec _ _) as [v| |]; cbn [bind] in Eb; try discriminate.
    - injection Eb as <-. now rewrite app_nil_r.
    - injection Eb as <-. inversion F. }
  pose proof (back_only_bent rust_num ex_straight els H Ec F) as [Hb _]. apply Hb. kept_tac.
Qed.
Print Assumptions C37_closed_there_and_back_refuted.

Example C37_case : Forall (closed_cubic rust_num) [ex_loop; ex_loop2] /\
  Forall (fun l => bent (l_start l) (removelast (l_segs l))) [ex_loop; ex_loop2] /\
  map (@length _) (map (contour_of (PD := unit)) [ex_loop; ex_loop2]) = [3; 2].
Proof.
  split; [constructor; [exact ex_loop_ok|constructor; [exact ex_loop2_ok|constructor]]|]. split; [|reflexivity].
  constructor; [|constructor; [|constructor]]; cbn [removelast l_segs ex_loop ex_loop2 bent];
    repeat split; intros [[H _] _]; vm_compute in H; discriminate.
Qed.

(** C38: converting a contour to pen operations never panics, and fails only for a contour of
    one point. *)
Theorem C38_pen_total : forall (PD : Type) (L : numlib) (c : contour PD),
  (exists r, into_pen_operations L c = Ok r) \/
  (length c = 1 /\ into_pen_operations L c = Err (EContourBadPointType 0 OffCurve)).
Proof. intros. apply pen_total. Qed.
Print Assumptions C38_pen_total.

(** C38 where it holds: a closed contour (as the conversion leaves it, with its types
    recomputed) all of whose segments are lines, or all of whose segments are curves. *)
Theorem C38_closed_draws_partial : forall (PD : Type) (L : numlib) (c c' : contour PD) ops,
  closed c -> into_pen_operations L c = Ok (ops, c') -> one_kind (closed_segments c') ->
  draws None ops (map (look L) (closed_segments c')).
Proof. intros PD L c c' ops. apply closed_drawn. Qed.
Print Assumptions C38_closed_draws_partial.

(** The contour it leaves is the refigured one (see C41). *)
Theorem C38_leaves_refigured : forall (PD : Type) (L : numlib) (c c' : contour PD) ops,
  into_pen_operations L c = Ok (ops, c') -> refigure c = Ok c'.
Proof.
  intros PD L c c' ops H. unfold into_pen_operations in H. destruct (refigure c) as [d| |] eqn:Hr; cbn [bind] in H; try discriminate.
  destruct (if is_closed c then _ else _) as [v| |]; cbn [bind] in H; try discriminate.
  destruct (penop_loop L d v _) as [w| |]; cbn [bind] in H; try discriminate.
  destruct (is_closed c).
  - destruct d as [|a d]; [discriminate|]. destruct (rev (a :: d)); [discriminate|]. injection H as _ H. congruence.
  - injection H as _ H. congruence.
Qed.
Print Assumptions C38_leaves_refigured.

(** C38 as stated is false for contours mixing lines and curves. *)
Definition ex_mixed : contour unit :=
  [kpt 0 0 Colocated Colocated Line; kpt 100 0 (kat 120 0) Colocated Line;
   kpt 50 80 Colocated (kat 60 90) Curve].
Theorem C38_mixed_refuted : exists (c c' : contour unit) ops,
  closed c /\ into_pen_operations rust_num c = Ok (ops, c') /\ c' = c /\
  kinds_agree (closed_segments c) /\
  ~ draws None ops (map (look rust_num) (closed_segments c')).
Proof.
  exists ex_mixed. do 2 eexists. split; [do 3 eexists; split; [reflexivity|discriminate]|].
  split; [vm_compute; reflexivity|]. split; [reflexivity|]. split.
  - intros s [<-|[<-|[<-|[]]]]; reflexivity.
  - intros H. inversion H as [|? ? ? ? H1| | | | |]; subst. inversion H1 as [| |? ? ? ? ? H2| | | |]; subst.
    inversion H2.
Qed.
Print Assumptions C38_mixed_refuted.

Definition ex_lines : contour unit :=
  [kpt 0 0 Colocated Colocated Line; kpt 100 0 Colocated Colocated Line; kpt 50 80 Colocated Colocated Line].
Example C38_case :
  (exists ops, into_pen_operations rust_num ex_lines = Ok (ops, ex_lines) /\ length ops = 4 /\
     one_kind (closed_segments ex_lines)) /\
  (exists ops, into_pen_operations rust_num (contour_of (PD := unit) ex_loop) = Ok (ops, contour_of ex_loop) /\
     length ops = 5 /\ one_kind (closed_segments (contour_of (PD := unit) ex_loop))).
Proof.
  split; eexists; (split; [vm_compute; reflexivity|]); (split; [reflexivity|]); intros s s' H H';
    cbn in H, H'; repeat destruct H as [<-|H]; try contradiction; repeat destruct H' as [<-|H']; try contradiction; reflexivity.
Qed.

(** C39 where it holds: an open contour of two points with a curve between them. *)
Theorem C39_open_draws_partial : forall (PD : Type) (L : numlib) (c : contour PD) p q ops,
  opened c -> into_pen_operations L c = Ok (ops, [p; q]) -> pptype q = Curve ->
  draws None ops (map (look L) (open_segments [p; q])).
Proof. intros PD L c p q ops Ho H. exact (open_two_drawn L c _ ops p q Ho H eq_refl). Qed.
Print Assumptions C39_open_draws_partial.

(** Elsewhere it fails.  If the first segment is a line there is no MoveTo, and the operations
    cannot be drawn at all. *)
Theorem C39_line_first_refuted : forall (PD : Type) (L : numlib) (c c' : contour PD) p ops,
  opened c -> into_pen_operations L c = Ok (ops, c') -> nth_error c' 1 = Some p -> pptype p = Line ->
  forall d, ~ draws None ops d.
Proof. intros PD L c c' p ops Ho H. exact (open_line_draws_nothing L c c' ops p Ho H). Qed.
Print Assumptions C39_line_first_refuted.

(** With three points or more and a curve first, the pen goes from the first point to the third
    with the handles of the second segment: the first segment is never drawn. *)
Theorem C39_curve_first_refuted : forall (PD : Type) (L : numlib) (c : contour PD) p q r t ops d,
  opened c -> into_pen_operations L c = Ok (ops, p :: q :: r :: t) -> pptype q = Curve ->
  draws None ops d ->
  exists d', d = DCurve (num_at L (px p, py p)) (num_at L (handle_at (px q, py q) (pa q)))
                        (num_at L (handle_at (px r, py r) (pb r))) (num_at L (px r, py r)) :: d'.
Proof. intros PD L c p q r t ops d Ho H Hq Hd. exact (open_skips L c _ ops p q r t Ho H eq_refl Hq d Hd). Qed.
Print Assumptions C39_curve_first_refuted.

Example C39_cases :
  (exists ops, into_pen_operations rust_num
     [kpt 0 0 (kat 10 10) Colocated Move; kpt 100 0 Colocated (kat 90 10) Curve] =
     Ok (ops, [kpt 0 0 (kat 10 10) Colocated Move; kpt 100 0 Colocated (kat 90 10) Curve]) /\ length ops = 2) /\
  (exists ops, into_pen_operations rust_num
     [kpt 0 0 Colocated Colocated Move; kpt 100 0 Colocated Colocated Line] =
     Ok (ops, [kpt 0 0 Colocated Colocated Move; kpt 100 0 Colocated Colocated Line]) /\ length ops = 1) /\
  (exists ops d, let c := [kpt 0 0 (kat 10 10) Colocated Move; kpt 100 0 (kat 110 10) (kat 90 10) Curve;
                         kpt 200 0 Colocated (kat 190 10) Curve] in
     into_pen_operations rust_num c = Ok (ops, c) /\ draws None ops d).
Proof.
  split; [eexists; split; [vm_compute; reflexivity|reflexivity]|].
  split; [eexists; split; [vm_compute; reflexivity|reflexivity]|].
  do 2 eexists. split; [vm_compute; reflexivity|]. repeat constructor.
Qed.

(** C40: reading a path never fails with an error; it panics exactly if the path has two or more
    elements and contains a quadratic segment or a ClosePath with no MoveTo since the one
    before. *)
Theorem C40_from_kurbo_exact : forall (PD : Type) (L : numlib) (path : list pathel),
  ((1 < length path /\ (stray_close path \/ Exists is_quad path)) /\
   outline_from_kurbo (PD := PD) L path = Panic) \/
  (~ (1 < length path /\ (stray_close path \/ Exists is_quad path)) /\
   exists o, outline_from_kurbo (PD := PD) L path = Ok o).
Proof. intros. apply from_kurbo_res. Qed.
Print Assumptions C40_from_kurbo_exact.

(** C40 as stated is false. *)
Theorem C40_from_kurbo_refuted : forall L : numlib,
  exists p q : f64 * f64, outline_from_kurbo (PD := unit) L [KMoveTo p; KQuadTo p q] = Panic /\
    outline_from_kurbo (PD := unit) L [KMoveTo p; KLineTo q; KClosePath; KClosePath] = Panic.
Proof. intros L. exists (wide (xy 0 0)), (wide (xy 1 0)). split; reflexivity. Qed.
Print Assumptions C40_from_kurbo_refuted.

Example C40_case : exists o, outline_from_kurbo (PD := unit) rust_num
  [KMoveTo (wide (xy 0 0)); KLineTo (wide (xy 5 0)); KMoveTo (wide (xy 0 1)); KLineTo (wide (xy 5 1)); KClosePath] = Ok o /\
  length o = 2.
Proof. eexists. split; [vm_compute; reflexivity|reflexivity]. Qed.
Example C40_stray : stray_close [KMoveTo (wide (xy 0 0)); KClosePath; KLineTo (wide (xy 5 0)); KClosePath].
Proof.
  exists [KMoveTo (wide (xy 0 0)); KClosePath], [KLineTo (wide (xy 5 0))], []. split; [reflexivity|].
  split; [repeat constructor|]. right. exists [KMoveTo (wide (xy 0 0))]. reflexivity.
Qed.

(** C43: computed in exact arithmetic, the cubic is the quadratic at every parameter. *)
Theorem C43_same_curve : forall (p0 p1 p2 c0 c1 c2 c3 t : Q),
  quad_to_cubic_coords Qplus Qminus (Qmult (2 / 3)) p0 p1 p2 = (c0, c1, c2, c3) ->
  (cubic_at c0 c1 c2 c3 t == quad_at p0 p1 p2 t)%Q.
Proof. intros. now apply elevation. Qed.
Print Assumptions C43_same_curve.

(** C43: whatever the arithmetic, the ends are the ends of the quadratic. *)
Theorem C43_same_ends : forall (PD : Type) (p0 p1 p2 q0 q1 q2 q3 : point PD),
  quad_to_cubic p0 p1 p2 = (q0, q1, q2, q3) -> q0 = p0 /\ q3 = p2 /\
  Forall (fun q => pptype q = OffCurve /\ pa q = Colocated /\ pb q = Colocated /\ psmooth q = false /\ pname q = None /\ pdata q = None) [q1; q2].
Proof.
  intros PD p0 p1 p2 q0 q1 q2 q3 H. unfold quad_to_cubic in H.
  destruct (quad_to_cubic_coord (px p0) (px p1) (px p2)) as [[[? ?] ?] ?].
  destruct (quad_to_cubic_coord (py p0) (py p1) (py p2)) as [[[? ?] ?] ?].
  injection H as <- <- <- <-. repeat split. apply Forall_cons; [repeat split|apply Forall_cons; [repeat split|apply Forall_nil]].
Qed.
Print Assumptions C43_same_ends.

Example C43_case : quad_to_cubic_coords Qplus Qminus (Qmult (2 / 3)) 0%Q 3%Q 9%Q =
  (0, 0 + 2 / 3 * (3 - 0), 9 + 2 / 3 * (3 - 9), 9)%Q /\
  (cubic_at 0 2 5 9 (1 # 2) == quad_at 0 3 9 (1 # 2))%Q.
Proof. split; reflexivity. Qed.
