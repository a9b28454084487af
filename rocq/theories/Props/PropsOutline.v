(** Properties C17-C23: contours read from and written as the points of a file. *)
Require Import Coq.Strings.String Coq.Lists.List Coq.Arith.Arith Coq.ZArith.ZArith Coq.micromega.Lia.
Require Import Verif.Model.Base Verif.Model.Text Verif.Model.Float Verif.Model.Num Verif.Model.RustNum Verif.Model.Point
  Verif.Model.Contour Verif.Model.Create Verif.Model.Conv
  Verif.Spec.ContourSpec Verif.Spec.OutlineSpec Verif.Facts.ContourFacts Verif.Facts.CreateFacts Verif.Facts.ConvFacts.
Import ListNotations.
Local Open Scope nat_scope.

Definition gpt (x y : Z) (t : ptype) : glifpoint := mkGP (IInt x) (IInt y) false None t.
(** A closed contour (curve, line) with the control points of the first segment at the end. *)
Definition ex_file : list glifpoint :=
  [gpt 0 0 Curve; gpt 100 0 Line; gpt 120 50 OffCurve; gpt 50 80 OffCurve].
Definition ex_file_open : list glifpoint :=
  [gpt 0 0 Move; gpt 10 20 OffCurve; gpt 90 20 OffCurve; gpt 100 0 Curve; gpt 200 0 Line].
Definition ex_quad : list glifpoint :=
  [gpt 0 0 QCurve; gpt 10 20 OffCurve; gpt 90 20 OffCurve; gpt 100 0 QCurve; gpt 50 50 Line].

Ltac all_cases := repeat (apply Forall_cons; [cbn; auto|]); apply Forall_nil.
Lemma ex_file_form : cubic_form ex_file.
Proof.
  do 2 eexists. split; [reflexivity|]. split; [right; now right|]. split.
  - all_cases.
  - apply scan_short. reflexivity.
Qed.
Lemma ex_file_open_form : cubic_form ex_file_open.
Proof.
  do 2 eexists. split; [reflexivity|]. split; [now left|]. split.
  - all_cases.
  - apply scan_short. reflexivity.
Qed.
Lemma ex_quad_form : quadratic_form ex_quad.
Proof. do 2 eexists. split; [reflexivity|]. split; [reflexivity|]. all_cases. Qed.

(** C17, closed contours. *)
Theorem C17_read_closed : forall (L : numlib) (PD : Type) (gc : list glifpoint) g t,
  cubic_form gc -> gc = g :: t -> gptype g <> Move ->
  exists c : contour PD, contour_of_glif L gc = Ok c /\
    map shown c = map listed (oncurves gc) /\ closed_segments c = closed_listed gc /\ Forall (fun p => pdata p = None) c.
Proof.
  intros L PD gc g t Hf -> Hm. destruct (read_cubic (PD:=PD) L (g :: t) Hf) as (c & H1 & H2 & H3 & H4); [congruence|].
  exists c. destruct (ptype_eqb_spec (gptype g) Move); [congruence|]. auto.
Qed.
Print Assumptions C17_read_closed.

(** C17, open contours with at least one segment. *)
Theorem C17_read_open : forall (L : numlib) (PD : Type) (gc : list glifpoint) g t,
  cubic_form gc -> gc = g :: t -> gptype g = Move -> oncurves t <> [] ->
  exists c : contour PD, contour_of_glif L gc = Ok c /\
    map shown c = map listed (oncurves gc) /\ open_segments c = open_listed gc /\
    option_map pb (hd_error c) = Some Colocated /\ Forall (fun p => pdata p = None) c.
Proof.
  intros L PD gc g t Hf -> Hm Ht. destruct (read_cubic (PD:=PD) L (g :: t) Hf) as (c & H1 & H2 & H3 & H4); [auto|].
  exists c. destruct (ptype_eqb_spec (gptype g) Move); [|congruence]. destruct H4. auto.
Qed.
Print Assumptions C17_read_open.

Example C17_case :
  cubic_form ex_file /\ cubic_form ex_file_open /\
  closed_listed ex_file =
    [mkSeg (position (gpt 0 0 Curve)) Colocated Colocated (position (gpt 100 0 Line)) Line;
     mkSeg (position (gpt 100 0 Line)) (placed (gpt 120 50 OffCurve)) (placed (gpt 50 80 OffCurve)) (position (gpt 0 0 Curve)) Curve].
Proof. split; [exact ex_file_form|]. split; [exact ex_file_open_form|]. reflexivity. Qed.

(** C17 needs the limit of two control points: three of them spill over into the next segment. *)
Example C17_long_run : exists c, contour_of_glif (PD:=unit) rust_num
    [gpt 0 0 Curve; gpt 1 1 OffCurve; gpt 2 2 OffCurve; gpt 3 3 OffCurve; gpt 9 9 Curve; gpt 8 8 Line] = Ok c /\
  option_map pa (nth_error c 1) = Some (placed (gpt 3 3 OffCurve)).
Proof. eexists. split; [vm_compute; reflexivity|reflexivity]. Qed.

(** C18: exactly when reading panics; it never fails otherwise. *)
Theorem C18_read_panics_exactly : forall (L : numlib) (PD : Type) (gcs : list (list glifpoint)),
  (outline_of_glif (PD:=PD) L gcs = Panic <-> exists gc, In gc gcs /\ unreadable gc) /\
  (forall e, outline_of_glif (PD:=PD) L gcs <> Err e).
Proof. intros. apply outline_panic. Qed.
Print Assumptions C18_read_panics_exactly.

(** C18 as stated is false: a contour mixing `line` and `qcurve` points panics. *)
Theorem C18_read_never_panics_refuted : forall L : numlib, exists gc : list glifpoint,
  Forall (fun g => ptype_is_valid (gptype g) = true) gc /\ gc <> [] /\ outline_of_glif (PD:=unit) L [gc] = Panic.
Proof.
  intros L. exists [gpt 0 0 Line; gpt 10 0 OffCurve; gpt 10 10 QCurve]. split; [repeat constructor|]. split; [discriminate|reflexivity].
Qed.
Print Assumptions C18_read_never_panics_refuted.

Example C18_case : ~ exists gc, In gc [ex_file; ex_file_open; ex_quad] /\ unreadable gc.
Proof.
  intros H. apply (proj1 (C18_read_panics_exactly rust_num unit _)) in H. vm_compute in H. discriminate.
Qed.

(** C19: exactly the unread contours are missing, the others are kept in order. *)
Theorem C19_read_keeps_exactly : forall (L : numlib) (PD : Type) (gcs : list (list glifpoint)) (o : outline PD),
  outline_of_glif L gcs = Ok o ->
  kept_in_order (fun gc c => contour_of_glif L gc = Ok c /\ c <> []) unread gcs o.
Proof. intros. now apply outline_kept. Qed.
Print Assumptions C19_read_keeps_exactly.

(** C19: a contour has no points after reading exactly when it is unread. *)
Theorem C19_unread_exactly : forall (L : numlib) (PD : Type) (gc : list glifpoint),
  contour_of_glif (PD:=PD) L gc = Ok [] <-> unread gc.
Proof. intros. apply unread_iff. Qed.
Print Assumptions C19_unread_exactly.

(** C19 as stated is false: closed contours may start with a control point, and are then lost. *)
Theorem C19_no_contour_lost_refuted : forall L : numlib, exists gc : list glifpoint,
  oncurves gc <> [] /\ length (oncurves gc) = 2 /\ outline_of_glif (PD:=unit) L [gc] = Ok [].
Proof.
  intros L. exists [gpt 120 50 OffCurve; gpt 50 80 OffCurve; gpt 0 0 Curve; gpt 100 0 Line].
  split; [discriminate|]. split; reflexivity.
Qed.
Print Assumptions C19_no_contour_lost_refuted.

Example C19_case : ~ unread ex_file /\ ~ unread ex_file_open /\ ~ unread ex_quad.
Proof.
  repeat split; intros (g & t & E & [[H|H]|[H H']]); injection E as <- <-; try discriminate.
  destruct (H' (gpt 100 0 Curve)) as [X|[X|X]]; [cbn; auto| | |]; discriminate.
Qed.

(** C20, for contours that do not end in a control point. *)
Theorem C20_implied_points_partial : forall (L : numlib) (PD : Type) (g : glifpoint) (t : list glifpoint),
  gptype g = QCurve -> offcurve (last t g) = false ->
  contour_of_glif (PD:=PD) L (g :: t) = Ok (with_implied (half L) (g :: t)).
Proof.
  intros L PD g t Hg Hz. rewrite (read_quadratic L g t _ (or_introl Hg) eq_refl), Hz. now rewrite app_nil_r.
Qed.
Print Assumptions C20_implied_points_partial.

(** C20: a contour ending in a control point gets one point more, half way between that control
    point and the first point. *)
Theorem C20_closing_point_exact : forall (L : numlib) (PD : Type) (g : glifpoint) (t : list glifpoint),
  gptype g = QCurve -> offcurve (last t g) = true ->
  contour_of_glif (PD:=PD) L (g :: t) = Ok (with_implied (half L) (g :: t) ++ [closing L (last t g) g]).
Proof.
  intros L PD g t Hg Hz. rewrite (read_quadratic L g t _ (or_introl Hg) eq_refl), Hz. reflexivity.
Qed.
Print Assumptions C20_closing_point_exact.

(** C20: no two control points remain adjacent. *)
Theorem C20_no_adjacent : forall (L : numlib) (PD : Type) (g : glifpoint) (t : list glifpoint) (c : contour PD),
  gptype g = QCurve -> contour_of_glif L (g :: t) = Ok c -> no_adjacent_off c.
Proof.
  intros L PD g t c Hg H. rewrite (read_quadratic L g t _ (or_introl Hg) eq_refl) in H. injection H as <-.
  pose proof (with_implied_no_adjacent (PD:=PD) L (g :: t)) as Hn. destruct (offcurve (last t g)); [|now rewrite app_nil_r].
  intros l p q r E [Hp Hq].
  destruct r as [|z r] using rev_ind.
  - assert (l ++ [p; q] = (l ++ [p]) ++ [q]) as X by (now rewrite <- app_assoc). rewrite X in E.
    apply app_inj_tail in E as [_ <-]. discriminate.
  - assert (l ++ p :: q :: r ++ [z] = (l ++ p :: q :: r) ++ [z]) as X by (now rewrite <- app_assoc). rewrite X in E.
    apply app_inj_tail in E as [E _]. now apply (Hn l p q r E).
Qed.
Print Assumptions C20_no_adjacent.

(** C20 as stated is false: with a control point at the end the contour read ends in an on-curve
    point that is neither listed nor between two control points. *)
Theorem C20_implied_points_refuted : forall L : numlib, exists gc (c : contour unit) l,
  quadratic_form gc /\ contour_of_glif L gc = Ok c /\ c <> with_implied (half L) gc /\
  nth_error c (length c - 1) = Some l /\ pptype l = QClose.
Proof.
  intros L. exists [gpt 0 0 QCurve; gpt 50 50 QCurve; gpt 10 20 OffCurve]. do 2 eexists. repeat split.
  - do 2 eexists. split; [reflexivity|]. split; [reflexivity|]. all_cases.
  - discriminate.
Qed.
Print Assumptions C20_implied_points_refuted.

Example C20_case : with_implied (PD:=unit) (half rust_num) ex_quad =
  [copied (gpt 0 0 QCurve); copied (gpt 10 20 OffCurve);
   half rust_num (gpt 10 20 OffCurve) (gpt 90 20 OffCurve); copied (gpt 90 20 OffCurve);
   copied (gpt 100 0 QCurve); copied (gpt 50 50 Line)].
Proof. reflexivity. Qed.

(** C21: every contour of lines and curves is written, and read back as a file can hold it,
    starting one point earlier if it starts with a curve point. *)
Theorem C21_write_read : forall (L : numlib) (PD : Type) (dbg : bool) (fuel : nat) (c : contour PD),
  (forall f, f32_of_iof (iof_of_f32 L f) = f) -> 1 <= fuel -> cubic_contour_form c ->
  exists gps c', into_glifpoints L dbg fuel c = Some (Ok gps) /\ contour_of_glif L gps = Ok c' /\
    forall p t, c = p :: t ->
      (pptype p <> Curve -> stored_as c c') /\
      (pptype p = Curve -> exists c1, one_earlier c c1 /\ stored_as c1 c').
Proof.
  intros L PD dbg fuel c HL Hf Hc. destruct fuel as [|f]; [lia|]. now apply write_read_cubic.
Qed.
Print Assumptions C21_write_read.

(** C21: a contour in the form a file can hold comes back exactly. *)
Theorem C21_write_read_exact : forall (L : numlib) (PD : Type) (dbg : bool) (fuel : nat) (c : contour PD),
  (forall f, f32_of_iof (iof_of_f32 L f) = f) -> 1 <= fuel -> cubic_contour_form c -> storable c ->
  exists gps c', into_glifpoints L dbg fuel c = Some (Ok gps) /\ contour_of_glif L gps = Ok c' /\
    forall p t, c = p :: t -> (pptype p <> Curve -> c' = c) /\ (pptype p = Curve -> one_earlier c c').
Proof.
  intros L PD dbg fuel c HL Hf Hc Hs. destruct (C21_write_read L PD dbg fuel c HL Hf Hc) as (gps & c' & H1 & H2 & H3).
  exists gps, c'. split; [assumption|]. split; [assumption|]. intros p t E. destruct (H3 p t E) as [Ha Hb]. split.
  - intros X. apply storable_exact; auto.
  - intros X. destruct (Hb X) as (c1 & He & Hst). assert (c' = c1) as ->; [|assumption].
    apply storable_exact; [|assumption]. eapply storable_earlier; eauto.
Qed.
Print Assumptions C21_write_read_exact.

Definition pt21 (x y : Z) (a b : handle) (t : ptype) : point unit :=
  mkPoint (f32_of_Z x) (f32_of_Z y) a b None t false None.
Definition ex21 : contour unit :=
  [pt21 0 0 Colocated (placed (gpt 50 80 OffCurve)) Curve; pt21 100 0 (placed (gpt 120 50 OffCurve)) Colocated Line].
Example C21_case : cubic_contour_form ex21 /\ storable ex21 /\ (forall f, f32_of_iof (iof_of_f32 rust_num f) = f).
Proof.
  split; [|split; [|reflexivity]].
  - do 2 eexists. split; [reflexivity|]. split; [right; now right|]. all_cases.
  - intros [|[|i]] p q Hp Hq; [| |destruct i; discriminate]; cbn in Hp, Hq; injection Hp as <-; injection Hq as <-;
      cbn; repeat split; intros; try reflexivity; try discriminate; exfalso; match goal with H : ?a <> ?a |- _ => now apply H end.
Qed.

(** C22: writing a contour terminates with a result that depends neither on the bound used for
    the loop nor on the kind of build; it panics exactly if no point is on the curve or a point
    is of a type that does not exist in files; and it never fails otherwise. *)
Theorem C22_write_terminates : forall (L : numlib) (PD : Type) (c : contour PD),
  exists r, (forall dbg fuel, 1 <= fuel -> into_glifpoints L dbg fuel c = Some r) /\
    (r = Panic <-> (forall p, In p c -> pptype p = OffCurve) \/
                   (exists p, In p c /\ (pptype p = Undefined \/ pptype p = QClose))) /\
    (forall e, r <> Err e).
Proof.
  intros L PD c.
  assert (forall fuel, 1 <= fuel -> exists f, fuel = S f) as HS by (intros [|f] H; [lia|eauto]).
  destruct (List.Exists_dec (fun p => pptype p = Undefined \/ pptype p = QClose) c) as [Hb|Hb].
  { intros p. destruct (ptype_eqb_spec (pptype p) Undefined); [left; auto|]. destruct (ptype_eqb_spec (pptype p) QClose); [left; auto|]. right. tauto. }
  - apply Exists_exists in Hb. exists Panic. split; [|split; [split; auto|discriminate]].
    intros dbg fuel Hf. destruct (HS fuel Hf) as [f ->]. apply into_glifpoints_spec. auto.
  - destruct (List.Forall_dec (fun p => pptype p = OffCurve) (fun p => Bool.reflect_dec _ _ (ptype_eqb_spec (pptype p) OffCurve)) c) as [Hn|Hn].
    + pose proof (proj1 (Forall_forall _ _) Hn) as Hn'.
      exists Panic. split; [|split; [split; auto|discriminate]].
      intros dbg fuel Hf. destruct (HS fuel Hf) as [f ->]. apply into_glifpoints_spec. auto.
    + assert (~ forall p, In p c -> pptype p = OffCurve) as Hn' by (intros X; apply Hn, Forall_forall, X).
      destruct c as [|p t]; [exfalso; apply Hn'; intros p []|].
      eexists. split; [|split].
      * intros dbg fuel Hf. destruct (HS fuel Hf) as [f ->]. apply (proj2 (into_glifpoints_spec L dbg f (p :: t)) p t eq_refl); [|exact Hn'].
        intros x Hx. split; intros X; apply Hb, Exists_exists; exists x; auto.
      * split; [discriminate|]. intros [X|X]; [now apply Hn' in X|]. exfalso. apply Hb, Exists_exists, X.
      * discriminate.
Qed.
Print Assumptions C22_write_terminates.

Example C22_case :
  into_glifpoints rust_num true 1 ex21 <> Some Panic /\ into_glifpoints rust_num true 1 [pt21 0 0 Colocated Colocated QClose] = Some Panic.
Proof. split; [vm_compute; discriminate|reflexivity]. Qed.

(** C23: what is written for a quadratic contour that was read from a file: it panics if the
    contour ended in a control point; otherwise all control points are replaced by ones lying
    on the on-curve points, and the start moves. *)
Theorem C23_quadratic_written_exact : forall (L : numlib) (PD : Type) (dbg : bool) (fuel : nat) (gc : list glifpoint) (z : glifpoint),
  1 <= fuel -> quadratic_form gc -> last gc z = z ->
  exists c : contour PD, contour_of_glif L gc = Ok c /\
    if offcurve z then into_glifpoints L dbg fuel c = Some Panic
    else exists gps, into_glifpoints L dbg fuel c = Some (Ok gps) /\ one_earlier (flat_map (quad_written L) c) gps.
Proof.
  intros L PD dbg fuel gc z Hf Hq Hz. destruct fuel as [|f]; [lia|]. now apply write_read_quadratic.
Qed.
Print Assumptions C23_quadratic_written_exact.

(** C23 as stated is false, in both ways. *)
Theorem C23_quadratic_refuted :
  (forall L dbg fuel, 1 <= fuel -> exists gc (c : contour unit),
     quadratic_form gc /\ contour_of_glif L gc = Ok c /\ into_glifpoints L dbg fuel c = Some Panic) /\
  (exists gc (c : contour unit) gps h,
     quadratic_form gc /\ contour_of_glif rust_num gc = Ok c /\ into_glifpoints rust_num false 1 c = Some (Ok gps) /\
     In h gc /\ offcurve h = true /\ forall h', In h' gps -> position h' <> position h).
Proof.
  split.
  - intros L dbg fuel Hf. exists [gpt 0 0 QCurve; gpt 50 50 QCurve; gpt 10 20 OffCurve].
    assert (quadratic_form [gpt 0 0 QCurve; gpt 50 50 QCurve; gpt 10 20 OffCurve]) as Hq.
    { do 2 eexists. split; [reflexivity|]. split; [reflexivity|]. all_cases. }
    destruct (C23_quadratic_written_exact L unit dbg fuel _ (gpt 10 20 OffCurve) Hf Hq eq_refl) as (c & H1 & H2).
    exists c. auto.
  - exists [gpt 0 0 QCurve; gpt 10 20 OffCurve; gpt 100 0 QCurve]. do 2 eexists. exists (gpt 10 20 OffCurve).
    split; [do 2 eexists; split; [reflexivity|]; split; [reflexivity|]; all_cases|].
    split; [reflexivity|]. split; [vm_compute; reflexivity|]. split; [cbn; auto|]. split; [reflexivity|].
    intros h' [<-|[<-|[<-|[<-|[]]]]]; vm_compute; discriminate.
Qed.
Print Assumptions C23_quadratic_refuted.

Example C23_case : quadratic_form ex_quad /\ last ex_quad (gpt 50 50 Line) = gpt 50 50 Line.
Proof. split; [exact ex_quad_form|reflexivity]. Qed.
