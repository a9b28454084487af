(** Properties C10-C16, C41, C42, C51, C53: contours, reversal, point types, handles. *)
Require Import Coq.Strings.String Coq.Lists.List Coq.Arith.Arith Coq.Bool.Bool Coq.ZArith.ZArith Coq.Sorting.Permutation Coq.Floats.SpecFloat Coq.micromega.Lia.
Require Import Verif.Model.Base Verif.Model.Text Verif.Model.Float Verif.Model.Num Verif.Model.RustNum Verif.Model.Point
  Verif.Model.Contour Verif.Model.Reverse Verif.Model.Refigure
  Verif.Spec.ContourSpec Verif.Facts.PointFacts Verif.Facts.ContourFacts Verif.Facts.RefigureFacts.
Import ListNotations.
Local Open Scope nat_scope.

(** Contours used in the examples: a closed triangle of curves, an open one, a mixed one. *)
Definition pt (x y : Z) (a b : handle) (t : ptype) : point unit :=
  mkPoint (f32_of_Z x) (f32_of_Z y) a b None t false None.
Definition at_ (x y : Z) : handle := At (f32_of_Z x) (f32_of_Z y).
Definition ex_closed : contour unit :=
  [pt 0 0 (at_ 10 0) (at_ (-10) 0) Curve; pt 100 0 (at_ 120 0) (at_ 90 0) Curve; pt 50 80 (at_ 30 80) (at_ 60 90) Curve].
Definition ex_open : contour unit :=
  [pt 0 0 (at_ 10 0) Colocated Move; pt 100 0 (at_ 120 0) (at_ 90 0) Curve; pt 50 80 Colocated (at_ 60 90) Curve].
Definition ex_mixed : contour unit :=
  [pt 0 0 (at_ 10 0) Colocated Line; pt 100 0 Colocated (at_ 90 0) Curve; pt 50 80 Colocated Colocated Line].
Definition ex_open_mixed : contour unit :=
  [pt 0 0 (at_ 10 0) Colocated Move; pt 100 0 Colocated (at_ 90 0) Curve; pt 50 80 Colocated Colocated Line].

Lemma ex_closed_closed : closed ex_closed.
Proof. do 3 eexists. split; [reflexivity|discriminate]. Qed.
Lemma ex_open_opened : opened ex_open.
Proof. do 3 eexists. split; reflexivity. Qed.

(** C10: lookup of neighbours is total, fails exactly as stated, and gives the cyclic ones. *)
Theorem C10_prev_next_total : forall (T : Type) (v : list T) (i : nat),
  (length v <= i -> prev_next v i = Err (EIdxOutOfBounds i (length v))) /\
  (length v = 1 -> i = 0 -> prev_next v i = Err ELenOne) /\
  (2 <= length v -> i < length v -> prev_next v i = Ok (prev_of (length v) i, next_of (length v) i)).
Proof. intros. apply prev_next_total. Qed.
Print Assumptions C10_prev_next_total.

(** C10: the neighbours are in range, different from the index, and inverse to each other. *)
Theorem C10_neighbours : forall n i : nat, 2 <= n -> i < n ->
  prev_of n i < n /\ next_of n i < n /\ prev_of n i <> i /\ next_of n i <> i /\
  next_of n (prev_of n i) = i /\ prev_of n (next_of n i) = i.
Proof. exact neighbours_good. Qed.
Print Assumptions C10_neighbours.

(** C10: `prev` and `next` are the two halves. *)
Theorem C10_prev_and_next : forall (T : Type) (v : list T) (i j : nat),
  2 <= length v -> i < length v -> j < length v ->
  (next v i = Ok j <-> prev v j = Ok i).
Proof.
  intros T v i j Hn Hi Hj. unfold next, prev. rewrite !prev_next_ok by assumption. cbn [bind fst snd].
  destruct (neighbours_good (length v) i Hn Hi) as (_ & _ & _ & _ & _ & H1).
  destruct (neighbours_good (length v) j Hn Hj) as (_ & _ & _ & _ & H2 & _).
  split; intros [= <-]; f_equal; assumption.
Qed.
Print Assumptions C10_prev_and_next.

Example C10_case : prev_next [7; 8; 9] 2 = Ok (1, 0) /\ prev_next [7] 0 = Err ELenOne /\ prev_next [7; 8] 2 = Err (EIdxOutOfBounds 2 2).
Proof. repeat split. Qed.

(** C11: open contours have no neighbour beyond their ends. *)
Theorem C11_open_neighbours : forall (PD : Type) (c : contour PD) (i : nat),
  opened c -> i < length c ->
  contour_prev_next c i =
  Ok (if i =? 0 then None else Some (i - 1), if i =? length c - 1 then None else Some (i + 1)).
Proof. intros. now apply contour_prev_next_open. Qed.
Print Assumptions C11_open_neighbours.

Theorem C11_closed_neighbours : forall (PD : Type) (c : contour PD) (i : nat),
  closed c -> i < length c ->
  contour_prev_next c i = Ok (Some (prev_of (length c) i), Some (next_of (length c) i)).
Proof. intros. now apply contour_prev_next_closed. Qed.
Print Assumptions C11_closed_neighbours.

(** C11: every contour of two or more points is one or the other, and the library's
    classification agrees; end classification. *)
Theorem C11_open_closed : forall (PD : Type) (c : contour PD), 2 <= length c ->
  (is_open c = true <-> opened c) /\ (is_closed c = true <-> closed c) /\ (opened c \/ closed c).
Proof.
  intros PD c H. destruct (is_open_iff c H) as [H1 H2]. split; [assumption|]. split; [|now apply open_or_closed].
  unfold is_closed. rewrite negb_true_iff. assumption.
Qed.
Print Assumptions C11_open_closed.

Theorem C11_which_end : forall (T : Type) (v : list T) (i : nat), 2 <= length v -> i < length v ->
  (idx_which_end v i = Ok (Some Head) <-> i = 0) /\
  (idx_which_end v i = Ok (Some Tail) <-> i = length v - 1) /\
  (idx_which_end v i = Ok None <-> 0 < i < length v - 1).
Proof.
  intros T v i Hn Hi. rewrite which_end_ok by assumption.
  destruct (Nat.eqb_spec i 0), (Nat.eqb_spec i (length v - 1)); repeat split; intros; try congruence; try lia.
Qed.
Print Assumptions C11_which_end.

Example C11_case :
  contour_prev_next ex_open 0 = Ok (None, Some 1) /\ contour_prev_next ex_open 2 = Ok (Some 1, None) /\
  contour_prev_next ex_closed 2 = Ok (Some 1, Some 0).
Proof. repeat split. Qed.

(** C12, for every point but the first and last of the contour. *)
Theorem C12_smooth_own_handles_partial : forall dist (PD : Type) (c : contour PD) (i : nat) (p : point PD) (w : f32),
  2 <= length c -> 0 < i -> i < length c - 1 -> nth_error c i = Some p ->
  is_point_smooth_within dist c i w = Ok (smooth_from dist p (pa p) (pb p) w).
Proof. intros. now apply smooth_inner. Qed.
Print Assumptions C12_smooth_own_handles_partial.

(** C12: what is decided at the ends of a closed contour: the first point is judged by its own
    outgoing handle and the incoming handle of the LAST point, the last one by the outgoing
    handle of the FIRST point and its own incoming one. *)
Theorem C12_smooth_head_exact : forall dist (PD : Type) (c : contour PD) (p l : point PD) (w : f32),
  closed c -> nth_error c 0 = Some p -> nth_error c (length c - 1) = Some l ->
  is_point_smooth_within dist c 0 w = Ok (smooth_from dist p (pa p) (pb l) w).
Proof. intros. now apply smooth_head. Qed.
Print Assumptions C12_smooth_head_exact.

Theorem C12_smooth_tail_exact : forall dist (PD : Type) (c : contour PD) (p h : point PD) (w : f32),
  closed c -> nth_error c (length c - 1) = Some p -> nth_error c 0 = Some h ->
  is_point_smooth_within dist c (length c - 1) w = Ok (smooth_from dist p (pa h) (pb p) w).
Proof. intros. now apply smooth_tail. Qed.
Print Assumptions C12_smooth_tail_exact.

(** C12: the ends of an open contour are never smooth. *)
Theorem C12_smooth_open_end : forall dist (PD : Type) (c : contour PD) (i : nat) (w : f32),
  opened c -> i = 0 \/ i = length c - 1 -> is_point_smooth_within dist c i w = Ok false.
Proof. intros. now apply smooth_open_end. Qed.
Print Assumptions C12_smooth_open_end.

(** C12 as stated is false: a first point lying exactly between its two handles is reported
    as not smooth. *)
Theorem C12_smooth_own_handles_refuted : exists (c : contour unit) (p : point unit),
  closed c /\ nth_error c 0 = Some p /\
  smooth_from seg_distance p (pa p) (pb p) smooth_tolerance = true /\
  is_point_smooth_within seg_distance c 0 smooth_tolerance = Ok false.
Proof.
  exists ex_closed, (pt 0 0 (at_ 10 0) (at_ (-10) 0) Curve). split; [exact ex_closed_closed|].
  split; [reflexivity|]. split; vm_compute; reflexivity.
Qed.
Print Assumptions C12_smooth_own_handles_refuted.

Example C12_case : exists p, nth_error ex_closed 1 = Some p /\
  smooth_from seg_distance p (pa p) (pb p) smooth_tolerance = true.
Proof. eexists. split; [reflexivity|]. vm_compute. reflexivity. Qed.

(** C13: only the smooth flag of the addressed point changes, to the answer given. *)
Theorem C13_check_smooth_frame : forall dist (PD : Type) (c : contour PD) (i : nat) (c' : contour PD) (b : bool),
  check_smooth dist c i = Ok (c', b) ->
  is_point_smooth_within dist c i smooth_tolerance = Ok b /\
  length c' = length c /\
  (forall j, j <> i -> nth_error c' j = nth_error c j) /\
  exists p p', nth_error c i = Some p /\ nth_error c' i = Some p' /\ same_but_smooth p p' /\ psmooth p' = b.
Proof. intros. now apply check_smooth_frame. Qed.
Print Assumptions C13_check_smooth_frame.

Theorem C13_check_smooth_never_panics : forall dist (PD : Type) (c : contour PD) (i : nat),
  check_smooth dist c i <> Panic.
Proof. intros. apply check_smooth_no_panic. Qed.
Print Assumptions C13_check_smooth_never_panics.

Example C13_case : exists c', check_smooth seg_distance ex_closed 1 = Ok (c', true) /\ c' <> ex_closed.
Proof. eexists. split; [vm_compute; reflexivity|discriminate]. Qed.

(** C14: a contour that is not open is restored by a second reversal. *)
Theorem C14_reverse_twice_closed : forall (dbg : bool) (PD : Type) (c : contour PD),
  c <> [] -> ~ opened c -> exists c', to_reversed dbg c = Ok c' /\ to_reversed dbg c' = Ok c.
Proof. intros. now apply reverse_closed_twice. Qed.
Print Assumptions C14_reverse_twice_closed.

(** C14: an open contour is restored exactly when the type of its last point is the one its
    last segment's handles call for. *)
Theorem C14_reverse_twice_open : forall (dbg : bool) (PD : Type) (p : point PD) (m : list (point PD)) (l : point PD) c',
  pptype p = Move -> to_reversed dbg (p :: m ++ [l]) = Ok c' ->
  (to_reversed dbg c' = Ok (p :: m ++ [l]) <-> pptype l = kind_of (pa (last m p)) (pb l)).
Proof. intros. now apply reverse_open_twice. Qed.
Print Assumptions C14_reverse_twice_open.

Example C14_case :
  ~ opened ex_closed /\ (exists c', to_reversed true ex_open = Ok c') /\ (exists c', to_reversed true ex_open_mixed = Ok c').
Proof.
  split; [|split; eexists; reflexivity]. intros (p & q & t & E & H). injection E as <- _. discriminate.
Qed.

(** C15, without the kind of the segments: the same strokes backwards, in reverse order. *)
Theorem C15_reverse_strokes_closed : forall (dbg : bool) (PD : Type) (c c' : contour PD),
  closed c -> to_reversed dbg c = Ok c' ->
  closed c' /\ map stroke (closed_segments c') = rev (map (fun s => stroke (flip s)) (closed_segments c)).
Proof. intros dbg PD c c' Hc H. split; [eapply reverse_keeps_closed; eauto|eapply reverse_closed_strokes; eauto]. Qed.
Print Assumptions C15_reverse_strokes_closed.

Theorem C15_reverse_strokes_open : forall (dbg : bool) (PD : Type) (c c' : contour PD),
  opened c -> to_reversed dbg c = Ok c' ->
  opened c' /\ map stroke (open_segments c') = rev (map (fun s => stroke (flip s)) (open_segments c)).
Proof. intros dbg PD c c' Hc H. split; [eapply reverse_keeps_open; eauto|eapply reverse_open_strokes; eauto]. Qed.
Print Assumptions C15_reverse_strokes_open.

(** C15, with the kinds: the segments are kept exactly when they are all of one kind. *)
Theorem C15_reverse_segments_closed_exact : forall (dbg : bool) (PD : Type) (c c' : contour PD),
  closed c -> to_reversed dbg c = Ok c' ->
  (closed_segments c' = rev (map flip (closed_segments c)) <-> one_kind (closed_segments c)).
Proof. intros. eapply reverse_closed_segments; eauto. Qed.
Print Assumptions C15_reverse_segments_closed_exact.

Theorem C15_reverse_segments_open_exact : forall (dbg : bool) (PD : Type) (c c' : contour PD),
  opened c -> kinds_agree (open_segments c) -> to_reversed dbg c = Ok c' ->
  (open_segments c' = rev (map flip (open_segments c)) <-> one_kind (open_segments c)).
Proof. intros. eapply reverse_open_segments; eauto. Qed.
Print Assumptions C15_reverse_segments_open_exact.

(** C15 as stated is false for contours mixing lines and curves, closed and open. *)
Theorem C15_reverse_shape_refuted :
  (exists c c' : contour unit, closed c /\ kinds_agree (closed_segments c) /\ to_reversed true c = Ok c' /\
     closed_segments c' <> rev (map flip (closed_segments c))) /\
  (exists c c' : contour unit, opened c /\ kinds_agree (open_segments c) /\ to_reversed true c = Ok c' /\
     open_segments c' <> rev (map flip (open_segments c))).
Proof.
  split.
  - exists ex_mixed. eexists. split; [do 3 eexists; split; [reflexivity|discriminate]|].
    split; [|split; [reflexivity|discriminate]].
    intros s Hs. cbn in Hs. destruct Hs as [<-|[<-|[<-|[]]]]; reflexivity.
  - exists ex_open_mixed. eexists. split; [do 3 eexists; split; reflexivity|].
    split; [|split; [reflexivity|discriminate]].
    intros s Hs. cbn in Hs. destruct Hs as [<-|[<-|[]]]; reflexivity.
Qed.
Print Assumptions C15_reverse_shape_refuted.

Example C15_case :
  one_kind (closed_segments ex_closed) /\ kinds_agree (open_segments ex_open) /\ one_kind (open_segments ex_open).
Proof.
  repeat split.
  - intros s s' H H'. cbn in H, H'. destruct H as [<-|[<-|[<-|[]]]], H' as [<-|[<-|[<-|[]]]]; reflexivity.
  - intros s Hs. cbn in Hs. destruct Hs as [<-|[<-|[]]]; reflexivity.
  - intros s s' H H'. cbn in H, H'. destruct H as [<-|[<-|[]]], H' as [<-|[<-|[]]]; reflexivity.
Qed.

(** C16: the points are the same up to order with handles swapped; only an open contour
    changes types; a contour that is not open keeps its start point; an open one starts at its
    former end. *)
Theorem C16_reverse_points : forall (dbg : bool) (PD : Type) (c c' : contour PD),
  to_reversed dbg c = Ok c' ->
  Permutation (map untyped c') (map (fun p => untyped (swapped p)) c) /\
  (~ opened c -> Permutation c' (map swapped c) /\ hd_error c' = option_map swapped (hd_error c)) /\
  (opened c -> hd_error (map untyped c') = hd_error (map (fun p => untyped (swapped p)) (rev c))).
Proof. intros. eapply reverse_points; eauto. Qed.
Print Assumptions C16_reverse_points.

(** C16: it panics exactly on an empty contour and, in debug builds only, on an open contour
    with handles beyond its ends. *)
Theorem C16_reverse_panics_exactly : forall (dbg : bool) (PD : Type) (c : contour PD),
  (to_reversed dbg c = Panic <-> c = [] \/ (dbg = true /\ opened c /\ ~ clean_ends c)) /\
  (forall e, to_reversed dbg c <> Err e).
Proof. intros. split; [apply reverse_panics|intros; apply reverse_no_err]. Qed.
Print Assumptions C16_reverse_panics_exactly.

Example C16_case :
  to_reversed true ex_open =
  Ok [pt 50 80 (at_ 60 90) Colocated Move; pt 100 0 (at_ 90 0) (at_ 120 0) Curve; pt 0 0 Colocated (at_ 10 0) Curve].
Proof. reflexivity. Qed.

(** C41: refiguring keeps everything but handles lying on their own point and the types, and
    gives the types the handles call for.  At the start of a closed contour the incoming
    segment is judged by the last point's handle as it was BEFORE tidying. *)
Theorem C41_refigure_types_partial : forall (PD : Type) (c c' : contour PD),
  2 <= length c -> refigure c = Ok c' ->
  length c' = length c /\
  (forall i p p', nth_error c i = Some p -> nth_error c' i = Some p' -> same_but_tidied p p') /\
  (forall i p' q', nth_error c' i = Some q' -> nth_error c' (S i) = Some p' ->
     pptype p' = kind_of (pa q') (pb p')) /\
  (opened c -> forall p', nth_error c' 0 = Some p' -> pptype p' = Move) /\
  (closed c -> forall p' l, nth_error c' 0 = Some p' -> nth_error c (length c - 1) = Some l ->
     pptype p' = kind_of (pa l) (pb p')).
Proof. intros. now apply refigure_types. Qed.
Print Assumptions C41_refigure_types_partial.

Theorem C41_refigure_total : forall (PD : Type) (c : contour PD), exists c', refigure c = Ok c'.
Proof. intros PD c. destruct (refigure_total c) as (c' & H & _). eauto. Qed.
Print Assumptions C41_refigure_total.

(** C41 as stated is false at the start of a closed contour. *)
Theorem C41_refigure_types_refuted : exists (c c' : contour unit) p l,
  closed c /\ refigure c = Ok c' /\ nth_error c' 0 = Some p /\ nth_error c' (length c' - 1) = Some l /\
  pa l = Colocated /\ pb p = Colocated /\ pptype p = Curve.
Proof.
  exists [pt 0 0 Colocated Colocated Line; pt 100 0 (at_ 100 0) Colocated Line].
  do 3 eexists. split; [do 3 eexists; split; [reflexivity|discriminate]|].
  split; [vm_compute; reflexivity|]. repeat split.
Qed.
Print Assumptions C41_refigure_types_refuted.

Example C41_case : exists c', refigure ex_open_mixed = Ok c' /\ map pptype c' = [Move; Curve; Line].
Proof. eexists. split; [vm_compute; reflexivity|reflexivity]. Qed.

(** C42: exactly when a second run changes nothing; the third never changes anything. *)
Theorem C42_refigure_idempotent_exact : forall (PD : Type) (c c' : contour PD),
  refigure c = Ok c' -> (refigure c' = Ok c' <-> ~ late_start c).
Proof. intros. now apply refigure_idempotent_iff. Qed.
Print Assumptions C42_refigure_idempotent_exact.

Theorem C42_refigure_stable_after_two : forall (PD : Type) (c c' c'' : contour PD),
  refigure c = Ok c' -> refigure c' = Ok c'' -> refigure c'' = Ok c''.
Proof. intros PD c c' c'' H H'. exact (refigure_thrice c c' c'' H H'). Qed.
Print Assumptions C42_refigure_stable_after_two.

(** C42 as stated is false. *)
Theorem C42_refigure_idempotent_refuted : exists c c' c'' : contour unit,
  refigure c = Ok c' /\ refigure c' = Ok c'' /\ c'' <> c'.
Proof.
  exists [pt 0 0 Colocated Colocated Line; pt 100 0 (at_ 100 0) Colocated Line].
  do 2 eexists. split; [vm_compute; reflexivity|]. split; [vm_compute; reflexivity|discriminate].
Qed.
Print Assumptions C42_refigure_idempotent_refuted.

Example C42_case : ~ late_start ex_closed /\ ~ late_start ex_open.
Proof.
  split.
  - intros (_ & p & l & Hp & Hl & (x & y & E & H1 & H2) & _). cbn in Hl. injection Hl as <-. cbn in E.
    injection E as <- <-. vm_compute in H1. discriminate.
  - intros ((p & q & t & E & H) & _). injection E as <- _. now apply H.
Qed.

(** C51: getting what was set, and nothing else changes. *)
Theorem C51_set_then_get : forall (PD : Type) (p : point PD) (w : which) (h : handle),
  w <> Neither -> get_handle (set_handle p w h) w = h.
Proof. intros. now apply set_get. Qed.
Print Assumptions C51_set_then_get.

Theorem C51_set_frame : forall (PD : Type) (p : point PD) (w : which) (h : handle),
  let p' := set_handle p w h in
  px p' = px p /\ py p' = py p /\ pname p' = pname p /\ pptype p' = pptype p /\ psmooth p' = psmooth p /\
  pdata p' = pdata p /\ get_handle p' (which_opposite w) = get_handle p (which_opposite w).
Proof. intros. apply set_frame. Qed.
Print Assumptions C51_set_frame.

Theorem C51_opposite : forall w : which,
  which_opposite (which_opposite w) = w /\ (which_opposite w = w <-> w = Neither) /\
  (forall dbg, which_of_char dbg (char_of_which w) = Ok w).
Proof. intros w. split; [apply opposite_involutive|]. split; [apply opposite_fixed|]. intros. apply which_char_round_trip. Qed.
Print Assumptions C51_opposite.

(** C51: types written in files survive printing and parsing, and parsing gives no others. *)
Theorem C51_point_type_text : forall t : ptype, ptype_is_valid t = true -> ptype_of_str (ptype_show t) = t.
Proof. exact ptype_text_round_trip. Qed.
Print Assumptions C51_point_type_text.

Example C51_case : get_handle (set_handle (pt 0 0 Colocated (at_ 1 2) Curve) WA (at_ 3 4)) WA = at_ 3 4.
Proof. reflexivity. Qed.

(** C53: for the points of a file the check rejects every NaN and subnormal coordinate. *)
Theorem C53_glif_point_valid_exact : forall g : glifpoint,
  gp_is_valid g = true <->
  gptype g <> Undefined /\
  forall f, gx g = IFloat f \/ gy g = IFloat f -> is_nan f = false /\ is_subnormal f = false.
Proof. exact gp_valid_iff. Qed.
Print Assumptions C53_glif_point_valid_exact.

(** C53: for points of an outline only x is checked for NaN and only y for subnormality. *)
Theorem C53_point_valid_exact : forall (PD : Type) (pdv : PD -> bool) (p : point PD),
  point_is_valid pdv p = true <->
  (forall d, pdata p = Some d -> pdv d = true) /\ pptype p <> Undefined /\
  is_nan (px p) = false /\ is_subnormal (py p) = false /\
  (forall x y, pa p = At x y \/ pb p = At x y -> is_nan x = false /\ is_subnormal y = false).
Proof. intros. apply point_valid_iff. Qed.
Print Assumptions C53_point_valid_exact.

(** C53 as stated is false: a NaN y, and a subnormal x, are accepted. *)
Theorem C53_point_valid_refuted :
  (exists p : point unit, is_nan (py p) = true /\ point_is_valid (fun _ => true) p = true) /\
  (exists p : point unit, is_subnormal (px p) = true /\ valid32 (px p) = true /\ point_is_valid (fun _ => true) p = true).
Proof.
  split.
  - exists (mkPoint pos_zero S754_nan Colocated Colocated None Line false None). split; reflexivity.
  - exists (mkPoint (S754_finite false 1 (-149)) pos_zero Colocated Colocated None Line false None). repeat split.
Qed.
Print Assumptions C53_point_valid_refuted.

Example C53_case : gp_is_valid (mkGP (IInt 3) (IFloat (fl "2.5")) false None Line) = true /\
  gp_is_valid (mkGP (IInt 3) (IFloat (fl "NaN")) false None Line) = false.
Proof. split; vm_compute; reflexivity. Qed.
