(** C87 to C89: edits of MFEK contours. *)
Require Import Coq.Strings.String Coq.Lists.List Coq.NArith.NArith Coq.ZArith.ZArith Coq.Arith.Arith Coq.Floats.SpecFloat Coq.micromega.Lia.
Require Import Verif.Model.Base Verif.Model.Text Verif.Model.Float Verif.Model.Num Verif.Model.Point
  Verif.Model.Contour Verif.Model.Mpoint Verif.Model.Mfek
  Verif.Spec.MfekSpec Verif.Spec.EditSpec Verif.Facts.MfekFacts Verif.Facts.EditFacts Verif.Props.PropsMfek.
Import ListNotations.
Local Open Scope nat_scope.

(** * C87 Editing a contour edits its list of points *)

(** Every edit that does not panic does to the points what it says, and keeps the kind of the
    contour, its flag and the settings of its operation. *)
Theorem C87_edit : forall (PD : Type) (c c' : mcontour PD) (e : edit),
  do_edit c e = Ok c' ->
  edited c e (points c') /\ same_kind c c' /\ open_flag c' = open_flag c /\ settings (mc_op c') = settings (mc_op c).
Proof.
  intros PD c c' e H. split; [now apply edited_ok|]. pose proof (kf_edit _ _ _ H) as K. apply kf_same in K as [K F].
  repeat split; auto. now apply settings_edit in H.
Qed.
Print Assumptions C87_edit.

(** Contours without variable-width stroke: an edit panics exactly if an index is out of range, and
    is never an error. *)
Theorem C87_panics_exactly : forall (PD : Type) (c : mcontour PD) (e : edit),
  handles c = None -> well_kinded c e ->
  (do_edit c e = Panic <-> ~ indices_ok c e) /\ (forall x, do_edit c e <> Err x).
Proof.
  intros PD c e Hn Hk. destruct (edit_total c e Hn Hk) as [(Hi & c' & ->)|(Hi & ->)]; split; try discriminate; split; try discriminate; try contradiction; auto.
Qed.
Print Assumptions C87_panics_exactly.

(** The same for whole histories: kind, flag and settings never change. *)
Theorem C87_history : forall (PD : Type) (c c' : mcontour PD) (l : list edit),
  run c l = Ok c' -> same_kind c c' /\ open_flag c' = open_flag c /\ settings (mc_op c') = settings (mc_op c).
Proof.
  intros PD c c' l H. apply run_kf in H as [K S]. apply kf_same in K as [K F]. auto.
Qed.
Print Assumptions C87_history.

(** Reversing twice gives the contour back. *)
Theorem C87_reverse_twice : forall (PD : Type) (c : mcontour PD), mc_reverse (mc_reverse c) = c.
Proof. intros PD [[l|l|l b] o]; unfold mc_reverse; cbn; now rewrite rev_involutive. Qed.
Print Assumptions C87_reverse_twice.

(** Taking a contour apart and appending the parts gives it back. *)
Theorem C87_sub_append : forall (PD : Type) (c a b : mcontour PD) (n : nat), handles c = None ->
  mc_sub c 0 n = Ok a -> mc_sub c n (size c) = Ok b -> mc_append a b = Some c.
Proof.
  intros PD [i o] a b n Hn. unfold mc_sub. rewrite !op_none_sub by exact Hn. cbn [mc_inner mc_op].
  assert (forall A (l : list A) x y, slice l 0 n = Ok x -> slice l n (length l) = Ok y -> x ++ y = l) as S.
  { intros A l x y. unfold slice. destruct (_ && _)%bool; [|discriminate]. intros [= <-]. destruct (Nat.leb_spec n (length l)) as [L|L]; [|discriminate].
    rewrite Nat.leb_refl. cbn [andb]. intros [= <-]. rewrite Nat.sub_0_r. cbn [skipn]. rewrite (firstn_all2 (skipn n l)) by (rewrite skipn_length; lia). apply firstn_skipn. }
  unfold size, points. cbn [mc_inner]. destruct i as [l|l|l f]; rewrite map_length; cbn [inner_sub inner_is_open];
    (destruct (slice l 0 n) as [x| |] eqn:E1; cbn [bind]; try discriminate; intros [= <-];
     destruct (slice l n (length l)) as [y| |] eqn:E2; cbn [bind]; try discriminate; intros [= <-];
     unfold mc_append; cbn [mc_inner inner_append mc_op]; rewrite op_none_append by exact Hn; now rewrite (S _ _ _ _ E1 E2)).
Qed.
Print Assumptions C87_sub_append.

(** C54: the points appended to a variable-width contour without points get widths of 10. *)
Theorem C54_append_to_nothing : forall (PD : Type) (c d : mcontour PD),
  handles c = Some [] -> points c = [] -> same_kind c d -> handles d = None ->
  exists c', mc_append c d = Some c' /\
    strokes c' = Some (map (fun p => (p, mkVH (f64_of_Z 10) (f64_of_Z 10) (S754_zero false) ILinear)) (points d)).
Proof.
  intros PD c d Hh Hp K Hd. destruct (append_step c d) as (c' & _ & _ & HK & _).
  - intros h Eh. unfold size. rewrite Hp. assert (h = []) as -> by congruence. reflexivity.
  - intros h Eh. congruence.
  - destruct (HK K) as (E & Ep & Hh' & _). exists c'. split; [assumption|]. rewrite (strokes_of _ _ (Hh' _ Hh)), Ep, Hp. unfold extra. rewrite Hd. cbn [app last].
    unfold size. f_equal. clear. induction (points d) as [|m l IH]; [reflexivity|]. cbn. now rewrite IH.
Qed.
Print Assumptions C54_append_to_nothing.

Example C87_case :
  let c : mcontour unit := MC (Cubic square) (Some dashed) in
  handles c = None /\ well_kinded c (EInsert 4 (MCubic (pt 9 9 Line))) /\ indices_ok c (EInsert 4 (MCubic (pt 9 9 Line))) /\
  ~ indices_ok c (EDelete 4) /\ (exists a b, mc_sub c 0 3 = Ok a /\ mc_sub c 3 (size c) = Ok b /\ size a = 3 /\ size b = 1) /\
  exists c', run c [EDelete 0; EReverse; ESub 1 3] = Ok c' /\ size c' = 2 /\
  handles (MC (Cubic []) (Some (wide_stroke [])) : mcontour unit) = Some [] /\ same_kind (MC (Cubic []) (Some (wide_stroke []))) c.
Proof.
  cbv zeta. split; [reflexivity|]. split; [exact I|]. split; [cbn; lia|]. split; [cbn; lia|]. split.
  - eexists _, _. split; [reflexivity|]. split; [reflexivity|]. split; reflexivity.
  - eexists. split; [reflexivity|]. repeat split.
Qed.

(** * C88 Edits keep a contour open or closed *)

(** Hyperbezier contours: always. *)
Theorem C88_hyper : forall (PD : Type) (c c' : mcontour PD) (l : list edit) (b : bool),
  open_flag c = Some b -> run c l = Ok c' -> (opened c' <-> opened c) /\ (closed c' <-> closed c).
Proof.
  intros PD c c' l b Hf H. destruct (C87_history _ _ _ _ H) as (_ & F & _). rewrite Hf in F.
  unfold opened, closed. rewrite (opened_flag _ _ Hf), (opened_flag _ _ F). tauto.
Qed.
Print Assumptions C88_hyper.

(** The other contours: when the first point stays, as for appending and for deleting, inserting
    and leaving out later points. *)
Theorem C88_first_point_stays : forall (PD : Type) (c c' : mcontour PD) (e : edit),
  do_edit c e = Ok c' -> 2 <= size c -> 2 <= size c' -> hd_error (points c') = hd_error (points c) ->
  (opened c' <-> opened c) /\ (closed c' <-> closed c).
Proof.
  intros PD c c' e H Hs Hs' Hh. destruct (C87_edit _ _ _ _ H) as (_ & _ & F & _). destruct (open_flag c) as [b|] eqn:Ef.
  - unfold opened, closed. rewrite (opened_flag _ _ Ef), (opened_flag _ _ F). tauto.
  - destruct (opened_first c Hs Ef) as [O C]. destruct (opened_first c' Hs' F) as [O' C']. unfold size in *.
    destruct (points c) as [|m l]; [cbn in Hs; lia|]. destruct (points c') as [|m' l']; [cbn in Hs'; lia|]. injection Hh as ->.
    rewrite O, O', C, C'. split; split; intros (? & ? & [= <- _] & ?); eauto.
Qed.
Print Assumptions C88_first_point_stays.

Theorem C88_append : forall (PD : Type) (c d c' : mcontour PD), 2 <= size c -> mc_append c d = Some c' ->
  (opened c' <-> opened c) /\ (closed c' <-> closed c).
Proof.
  intros PD c d c' Hs H. assert (do_edit c (EAppend d) = Ok c') as E by (cbn; now rewrite H).
  destruct (edited_ok _ _ _ E) as [[_ P]|[_ P]]; apply (C88_first_point_stays _ _ _ _ E); try assumption; unfold size in *; rewrite P; try rewrite app_length; try lia;
    destruct (points c); cbn in *; try lia; reflexivity.
Qed.
Print Assumptions C88_append.

(** False for the others: reversing an open contour always closes it, ... *)
Theorem C88_reverse_refuted : forall (PD : Type) (c : mcontour PD),
  2 <= size c -> open_flag c = None -> moves_first c -> closed (mc_reverse c).
Proof.
  intros PD c Hs Hf Hm. assert (open_flag (mc_reverse c) = None) as F by (destruct c as [[l|l|l b] o]; cbn in *; congruence).
  assert (2 <= size (mc_reverse c)) as Hs' by (unfold size; rewrite reverse_points, rev_length; exact Hs).
  apply (opened_first _ Hs' F). unfold size in *. rewrite reverse_points. destruct (points c) as [|m l] eqn:Ep; [cbn in Hs; lia|].
  destruct (exists_last (l := l)) as (k & x & ->); [intros ->; cbn in Hs; lia|].
  exists x, (rev (m :: k)). split; [change (m :: k ++ [x]) with ((m :: k) ++ [x]); rewrite rev_app_distr; reflexivity|].
  apply Hm. rewrite Ep. cbn. apply in_or_app. right. now left.
Qed.
Print Assumptions C88_reverse_refuted.

(** ... and so does deleting its first point, ... *)
Theorem C88_delete_first_refuted : forall (PD : Type) (c c' : mcontour PD),
  3 <= size c -> open_flag c = None -> moves_first c -> mc_delete c 0 = Ok c' -> closed c'.
Proof.
  intros PD c c' Hs Hf Hm H. assert (do_edit c (EDelete 0) = Ok c') as E by exact H.
  destruct (C87_edit _ _ _ _ E) as ((a & x & b & P & La & P') & _ & F & _). destruct a; [|discriminate]. cbn in P, P'.
  assert (2 <= size c') as Hs' by (unfold size in *; rewrite P in Hs; rewrite P'; cbn in Hs; lia).
  apply (opened_first _ Hs'); [congruence|]. rewrite P'. unfold size in *. destruct b as [|y b]; [rewrite P in Hs; cbn in Hs; lia|].
  exists y, b. split; [reflexivity|]. apply Hm. rewrite P. now left.
Qed.
Print Assumptions C88_delete_first_refuted.

(** ... and taking a part of it that does not begin at its first point. *)
Theorem C88_sub_refuted : forall (PD : Type) (c c' : mcontour PD) (b e : nat),
  open_flag c = None -> moves_first c -> 0 < b -> b + 2 <= e -> mc_sub c b e = Ok c' -> closed c'.
Proof.
  intros PD c c' b e Hf Hm Hb He H. assert (do_edit c (ESub b e) = Ok c') as E by exact H.
  destruct (C87_edit _ _ _ _ E) as ((a & d & P & La & Le) & _ & F & _).
  assert (2 <= size c') as Hs' by (unfold size; lia).
  apply (opened_first _ Hs'); [congruence|]. unfold size in *. destruct (points c') as [|m l] eqn:P'; [cbn in Hs'; lia|].
  exists m, l. split; [reflexivity|]. apply Hm. rewrite P. destruct a as [|x a]; [cbn in La; lia|]. cbn. apply in_or_app. right. now left.
Qed.
Print Assumptions C88_sub_refuted.

Example C88_case :
  let c : mcontour unit := MC (Cubic [pt 0 0 Move; pt 1 0 Line; pt 1 1 Line; pt 0 1 Line]) None in
  opened c /\ 3 <= size c /\ open_flag c = None /\ moves_first c /\
  (exists c', mc_delete c 0 = Ok c') /\ (exists c', mc_sub c 1 3 = Ok c') /\ (exists c', mc_append c c = Some c' /\ size c' = 8) /\
  exists c', do_edit c (EDelete 2) = Ok c' /\ 2 <= size c' /\ hd_error (points c') = hd_error (points c).
Proof.
  cbv zeta. split; [reflexivity|]. split; [cbn; lia|]. split; [reflexivity|]. split.
  - intros m Hm. cbn in Hm. destruct Hm as [<-|[<-|[<-|[]]]]; discriminate.
  - split; [eexists; reflexivity|]. split; [eexists; reflexivity|]. split; [eexists; split; reflexivity|]. eexists. split; [reflexivity|]. split; [cbn; lia|reflexivity].
Qed.

(** * C89 Changing one point of a contour *)

(** Changing the n-th point changes that point as the method says, no other point, and nothing
    else; an index out of range changes nothing. *)
Theorem C89_only_that_point : forall (PD : Type) (c : mcontour PD) (n : nat) (ch : change),
  let c' := mc_update c n (change_point ch) in
  (forall k, inner_get_point (mc_inner c') k =
     if k =? n then option_map (change_point ch) (inner_get_point (mc_inner c) n) else inner_get_point (mc_inner c) k) /\
  size c' = size c /\ same_kind c c' /\ open_flag c' = open_flag c /\ mc_op c' = mc_op c.
Proof.
  intros PD c n ch c'. split; [|split; [|split; [|split]]].
  - intros k. unfold c'. rewrite !get_point_spec, update_points. destruct (nth_error (points c) n) as [m|] eqn:E.
    + rewrite nth_upd by (apply nth_error_Some; congruence). reflexivity.
    + destruct (Nat.eqb_spec k n) as [->|_]; [exact E|reflexivity].
  - unfold size, c'. rewrite update_points. destruct (nth_error (points c) n) as [m|] eqn:E; [|reflexivity].
    assert (n < length (points c)) by (apply nth_error_Some; congruence). rewrite app_length, firstn_length. cbn [length]. rewrite skipn_length. lia.
  - destruct c as [[l|l|l b] o]; exact I.
  - destruct c as [[l|l|l b] o]; reflexivity.
  - destruct c as [[l|l|l b] o]; reflexivity.
Qed.
Print Assumptions C89_only_that_point.

(** Stroke handles stay in step. *)
Theorem C89_in_step : forall (PD : Type) (c : mcontour PD) (n : nat) (ch : change),
  in_step c -> in_step (mc_update c n (change_point ch)) /\ handles (mc_update c n (change_point ch)) = handles c.
Proof.
  intros PD c n ch Hs. assert (handles (mc_update c n (change_point ch)) = handles c) as E by (destruct c as [[l|l|l b] o]; reflexivity).
  split; [|exact E]. intros h Hh. destruct (C89_only_that_point PD c n ch) as (_ & -> & _). apply Hs. congruence.
Qed.
Print Assumptions C89_in_step.

(** A contour is of exactly one kind, the one its type says, and that view has all its points. *)
Theorem C89_views : forall (PD : Type) (c : mcontour PD),
  match inner_get_type (mc_inner c) with
  | TCubic => exists l, inner_cubic (mc_inner c) = Some l /\ points c = map MCubic l /\ inner_quad (mc_inner c) = None /\ inner_hyper (mc_inner c) = None
  | TQuad => exists l, inner_quad (mc_inner c) = Some l /\ points c = map MQuad l /\ inner_cubic (mc_inner c) = None /\ inner_hyper (mc_inner c) = None
  | THyper => exists l b, inner_hyper (mc_inner c) = Some (l, b) /\ points c = map MHyper l /\ open_flag c = Some b /\
      inner_cubic (mc_inner c) = None /\ inner_quad (mc_inner c) = None
  end.
Proof. intros PD [[l|l|l b] o]; cbn; [exists l|exists l|exists l, b]; auto. Qed.
Print Assumptions C89_views.

Example C89_case :
  let c : mcontour unit := MC (Cubic square) (Some (wide_stroke [1; 2; 3; 4]%Z)) in
  in_step c /\ points (mc_update c 2 (change_point (ChSmooth true))) <> points c /\ mc_update c 4 (change_point (ChSmooth true)) = c.
Proof. cbv zeta. split; [intros h [= <-]; reflexivity|]. split; [discriminate|reflexivity]. Qed.
