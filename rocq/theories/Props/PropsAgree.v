(** Property C105: kurbo and Skia are given the same drawing. *)
Require Import Coq.Strings.String Coq.Lists.List Coq.Arith.Arith Coq.ZArith.ZArith Coq.Bool.Bool Coq.micromega.Lia.
Require Import Verif.Model.Base Verif.Model.Float Verif.Model.Num Verif.Model.RustNum Verif.Model.Point Verif.Model.Contour Verif.Model.Refigure Verif.Model.Penops
  Verif.Model.Kurbo Verif.Model.Skia
  Verif.Spec.ContourSpec Verif.Spec.PathSpec Verif.Spec.SkiaSpec Verif.Spec.AgreeSpec
  Verif.Facts.RefigureFacts Verif.Facts.AgreeFacts Verif.Props.PropsKurbo Verif.Props.PropsSkia Verif.Props.PropsPen.
Import ListNotations.
Local Open Scope list_scope.
Local Open Scope nat_scope.

Lemma closed_or_opened {PD} (c : contour PD) : 2 <= length c -> closed c \/ opened c.
Proof.
  destruct c as [|p [|q t]]; cbn [length]; intros H; try lia.
  destruct (pptype p) eqn:E; [left|right|left|left|left|left|left]; exists p, q, t; split; congruence || reflexivity.
Qed.
Lemma segments_closed {PD} (c : contour PD) : closed c -> segments c = closed_segments c.
Proof. intros (p & q & t & -> & M). cbn [segments]. destruct (pptype p); congruence. Qed.
Lemma segments_opened {PD} (c : contour PD) : opened c -> segments c = open_segments c.
Proof. intros (p & q & t & -> & M). cbn [segments]. now rewrite M. Qed.

(** C105: of a contour whose types are as recomputing leaves them, the pen operations draw what the Skia path
    draws exactly if it is closed and all lines or all curves, or is a single open curve. *)
Theorem C105_pen_exact : forall (PD : Type) (L : numlib) (c : contour PD) (ops : list penop),
  2 <= length c -> into_pen_operations L c = Ok (ops, c) -> spread_out L c ->
  exists s, to_skia_path (fun x => x) (fun y => y) c = Some (verbs s) /\ no_conics s /\ SkiaSpec.draws s (strokes c) /\
    (PathSpec.draws None ops (map (penned L) (strokes c)) <-> pen_can c).
Proof.
  intros PD L c ops Hl H [S1 S2]. pose proof (C38_leaves_refigured PD L c c ops H) as Hr.
  destruct c as [|p t]; [cbn in Hl; lia|].
  destruct (C52_contour_drawn PD (fun x => x) (fun y => y) (p :: t) p t eq_refl (refigured_drawable _ Hl Hr)) as (s & E & N & _ & _ & D).
  exists s. split; [exact E|]. split; [exact N|]. split; [exact D|]. rewrite <- looks_alike by assumption.
  destruct (closed_or_opened _ Hl) as [C|C].
  - rewrite segments_closed by assumption. rewrite (C38_closed_draws_exact PD L (p :: t) (p :: t) ops C H (S2 C)). split.
    + intros K. left. now split.
    + intros [[_ K]|(a & b & E1 & E2 & _)]; [exact K|]. destruct C as (x & y & z & E3 & M). congruence.
  - rewrite segments_opened by assumption. rewrite (C39_open_draws_exact PD L (p :: t) (p :: t) ops C H S1). split.
    + intros (a & b & E1 & E2). right. exists a, b. split; [exact E1|]. split; [|exact E2]. destruct C as (x & y & z & E3 & M). congruence.
    + intros [[(x & y & z & E1 & M) _]|(a & b & E1 & _ & E2)]; [|now exists a, b]. destruct C as (x' & y' & z' & E3 & M'). congruence.
Qed.
Print Assumptions C105_pen_exact.

(** C105: such contours are drawn alike by kurbo and by Skia, also with neighbouring points in one place; kurbo's
    numbers are Skia's in 64 bits. *)
Theorem C105_kurbo_and_skia : forall (PD : Type) (c : contour PD),
  refigure c = Ok c -> pen_can c ->
  exists k s, contour_into_kurbo_vec rust_num c = Ok k /\ kurbo_draws None k (map widened (strokes c)) /\
    to_skia_path (fun x => x) (fun y => y) c = Some (verbs s) /\ no_conics s /\ SkiaSpec.draws s (strokes c).
Proof.
  intros PD c Hr Hp.
  assert (2 <= length c) as Hl by (destruct Hp as [[(p & q & t & -> & _) _]|(p & q & -> & _)]; cbn; lia).
  assert (exists ops, into_pen_operations rust_num c = Ok (ops, c)) as [ops H].
  { destruct (C38_pen_total PD rust_num c) as [[[ops c'] H]|[H _]]; [|lia]. pose proof (C38_leaves_refigured _ _ _ _ _ H). exists ops. congruence. }
  destruct c as [|p t]; [cbn in Hl; lia|].
  destruct (C52_contour_drawn PD (fun x => x) (fun y => y) (p :: t) p t eq_refl (refigured_drawable _ Hl Hr)) as (s & E & N & _ & _ & D).
  exists (map pathel_of_penop ops), s. unfold contour_into_kurbo_vec. rewrite H. cbn [bind fst]. split; [reflexivity|].
  split; [|now split; [exact E|split]].
  rewrite <- (map_ext _ _ penned_widened (strokes (p :: t))), <- (map_map (penned rust_num) kdrawn), <- looks_alike by assumption. apply (pen_kurbo None).
  destruct Hp as [[C K]|(a & b & E1 & M & K)].
  - rewrite segments_closed by assumption. exact (C38_closed_draws_partial PD rust_num _ _ ops C H K).
  - assert (opened (p :: t)) as O by (exists a, b, []; now split).
    rewrite segments_opened by assumption. rewrite E1 in *. exact (C39_open_draws_partial PD rust_num _ a b ops O H K).
Qed.
Print Assumptions C105_kurbo_and_skia.

(** C105: for kurbo too, exactly these contours. *)
Theorem C105_kurbo_exact : forall (PD : Type) (c : contour PD) (k : list pathel),
  2 <= length c -> refigure c = Ok c -> valid_numbers c -> spread_out rust_num c -> contour_into_kurbo_vec rust_num c = Ok k ->
  exists s, to_skia_path (fun x => x) (fun y => y) c = Some (verbs s) /\ no_conics s /\ SkiaSpec.draws s (strokes c) /\
    (kurbo_draws None k (map widened (strokes c)) <-> pen_can c).
Proof.
  intros PD c k Hl Hr Hv Hs Hk. unfold contour_into_kurbo_vec in Hk.
  destruct (into_pen_operations rust_num c) as [[ops c']| |] eqn:H; try discriminate Hk. injection Hk as <-. cbn [fst].
  assert (c' = c) as -> by (pose proof (C38_leaves_refigured _ _ _ _ _ H); congruence).
  destruct (C105_pen_exact PD rust_num c ops Hl H Hs) as (s & E & N & D & X). exists s. split; [exact E|]. split; [exact N|]. split; [exact D|].
  rewrite <- X. rewrite <- (map_ext _ _ penned_widened (strokes c)), <- (map_map (penned rust_num) kdrawn).
  assert (Forall (point_all rust_num float_place) c) as A.
  { apply Forall_forall. intros p I. destruct (Hv p I) as ([V1 V2] & [V3 V4] & [V5 V6]).
    split; [|split]; do 2 eexists; (split; [reflexivity|split; assumption]). }
  split; [|exact (pen_kurbo None _ _)]. intros K. apply (kurbo_pen ops None); [discriminate| | |exact K].
  - exact (ops_all rust_num float_place _ _ _ H A).
  - exact (strokes_all rust_num float_place _ A).
Qed.
Print Assumptions C105_kurbo_exact.

(** C105 as stated is false: a closed contour of lines and curves, and an open contour of lines. *)
Theorem C105_refuted :
  (exists k s, contour_into_kurbo_vec rust_num ex_mixed = Ok k /\ to_skia_path (fun x => x) (fun y => y) ex_mixed = Some (verbs s) /\
     SkiaSpec.draws s (strokes ex_mixed) /\ ~ kurbo_draws None k (map widened (strokes ex_mixed))) /\
  (exists (c : contour unit) k s, refigure c = Ok c /\ contour_into_kurbo_vec rust_num c = Ok k /\ to_skia_path (fun x => x) (fun y => y) c = Some (verbs s) /\
     SkiaSpec.draws s (strokes c) /\ forall l, ~ kurbo_draws None k l).
Proof.
  split.
  - destruct (C52_contour_drawn unit (fun x => x) (fun y => y) ex_mixed _ _ eq_refl) as (s & E & N & _ & _ & D).
    { do 2 eexists. split; [reflexivity|]. unfold drawable. cbn. split; [tauto|]. repeat constructor; tauto. }
    eexists. exists s. split; [vm_compute; reflexivity|]. split; [exact E|]. split; [exact D|].
    intros H. inversion H as [|? ? ? ? H1| | | | |]; subst. inversion H1 as [| |? ? ? ? ? H2| | | |]; subst. inversion H2.
  - exists [pt 0 0 Colocated Colocated Move; pt 9 0 Colocated Colocated Line; pt 0 9 Colocated Colocated Line].
    destruct (C52_contour_drawn unit (fun x => x) (fun y => y) [pt 0 0 Colocated Colocated Move; pt 9 0 Colocated Colocated Line; pt 0 9 Colocated Colocated Line] _ _ eq_refl) as (s & E & N & _ & _ & D).
    { do 2 eexists. split; [reflexivity|]. unfold drawable. cbn. split; [tauto|]. repeat constructor; tauto. }
    eexists. exists s. split; [vm_compute; reflexivity|]. split; [vm_compute; reflexivity|]. split; [exact E|]. split; [exact D|].
    intros l H. inversion H.
Qed.
Print Assumptions C105_refuted.

(** Contours that are meant: a triangle, and a single curve. *)
Example C105_case : (refigure ex_triangle = Ok ex_triangle /\ pen_can ex_triangle) /\ (refigure ex_bow = Ok ex_bow /\ pen_can ex_bow) /\
  map (@List.length stroke) [strokes ex_triangle; strokes ex_bow] = [3; 1].
Proof.
  split; [split; [vm_compute; reflexivity|]|split; [split; [vm_compute; reflexivity|]|reflexivity]].
  - left. split; [do 3 eexists; split; [reflexivity|discriminate]|]. intros s s' H H'. cbn in H, H'.
    repeat (destruct H as [<-|H]; [|]); repeat (destruct H' as [<-|H']; [|]); try contradiction; reflexivity.
  - right. do 2 eexists. split; [reflexivity|]. split; reflexivity.
Qed.
Example C105_exact_case : exists ops, into_pen_operations rust_num ex_triangle = Ok (ops, ex_triangle) /\ valid_numbers ex_triangle /\ spread_out rust_num ex_triangle.
Proof.
  eexists. split; [vm_compute; reflexivity|]. split.
  { intros p I. cbn in I. repeat (destruct I as [<-|I]; [repeat split|]); destruct I. }
  split; [|intros _ p t E; injection E as <- _]; (apply apart_spread; [cbn; intros x H; repeat (destruct H as [<-|H]; [split; reflexivity|]); destruct H|vm_compute; reflexivity]).
Qed.
