(** Handles, point types, validity. *)
Require Import Coq.Lists.List Coq.NArith.NArith Coq.Bool.Bool Coq.Strings.String.
Require Import Verif.Model.Base Verif.Model.Text Verif.Model.Float Verif.Model.Num Verif.Model.Point.
Import ListNotations.

Lemma set_get {PD} (p : point PD) w h : w <> Neither -> get_handle (set_handle p w h) w = h.
Proof. destruct w; [congruence|reflexivity..]. Qed.
Lemma set_frame {PD} (p : point PD) w h :
  let p' := set_handle p w h in
  px p' = px p /\ py p' = py p /\ pname p' = pname p /\ pptype p' = pptype p /\ psmooth p' = psmooth p /\
  pdata p' = pdata p /\ get_handle p' (which_opposite w) = get_handle p (which_opposite w).
Proof. destruct w; cbn; auto 10. Qed.
Lemma set_neither {PD} (p : point PD) h : set_handle p Neither h = p /\ get_handle p Neither = Colocated.
Proof. split; reflexivity. Qed.
Lemma set_set {PD} (p : point PD) w h h' : set_handle (set_handle p w h) w h' = set_handle p w h'.
Proof. destruct w; reflexivity. Qed.
Lemma set_comm {PD} (p : point PD) h h' :
  set_handle (set_handle p WA h) WB h' = set_handle (set_handle p WB h') WA h.
Proof. reflexivity. Qed.
Lemma opposite_involutive w : which_opposite (which_opposite w) = w.
Proof. now destruct w. Qed.
Lemma opposite_fixed w : which_opposite w = w <-> w = Neither.
Proof. destruct w; split; cbn; congruence. Qed.
Lemma which_char_round_trip dbg w : which_of_char dbg (char_of_which w) = Ok w.
Proof. destruct dbg, w; reflexivity. Qed.
Lemma ptype_text_round_trip t : ptype_is_valid t = true -> ptype_of_str (ptype_show t) = t.
Proof. destruct t; cbn; try discriminate; reflexivity. Qed.
Lemma ptype_of_str_valid s : ptype_is_valid (ptype_of_str s) = true.
Proof.
  unfold ptype_of_str. destruct (str_eqb s (lit "move")); [reflexivity|]. destruct (str_eqb s (lit "line")); [reflexivity|].
  destruct (str_eqb s (lit "qcurve")); [reflexivity|]. now destruct (str_eqb s (lit "curve")).
Qed.

(** Where a handle is, with a placed handle or on the point. *)
Lemma handle_position {PD} (p : point PD) w :
  handle_or_colocated p w (fun f => f) (fun f => f) =
  match get_handle p w with At x y => (x, y) | Colocated => (px p, py p) end.
Proof. unfold handle_or_colocated. now destruct (get_handle p w). Qed.

Definition bad (f : f32) : bool := is_nan f || is_subnormal f.

Lemma point_valid_iff {PD} (pdv : PD -> bool) (p : point PD) :
  point_is_valid pdv p = true <->
  (forall d, pdata p = Some d -> pdv d = true) /\ pptype p <> Undefined /\
  is_nan (px p) = false /\ is_subnormal (py p) = false /\
  (forall x y, pa p = At x y \/ pb p = At x y -> is_nan x = false /\ is_subnormal y = false).
Proof.
  unfold point_is_valid. rewrite !andb_true_iff, forallb_forall, !negb_true_iff, orb_false_iff. split.
  - intros (((Hd & Ht) & Hx & Hy) & Hh). repeat split; auto.
    + intros d E. now rewrite E in Hd.
    + intros E. now rewrite E in Ht.
    + destruct H as [H|H].
      * specialize (Hh (pa p) (or_introl eq_refl)). rewrite H, negb_true_iff, orb_false_iff in Hh. tauto.
      * specialize (Hh (pb p) (or_intror (or_introl eq_refl))). rewrite H, negb_true_iff, orb_false_iff in Hh. tauto.
    + destruct H as [H|H].
      * specialize (Hh (pa p) (or_introl eq_refl)). rewrite H, negb_true_iff, orb_false_iff in Hh. tauto.
      * specialize (Hh (pb p) (or_intror (or_introl eq_refl))). rewrite H, negb_true_iff, orb_false_iff in Hh. tauto.
  - intros (Hd & Ht & Hx & Hy & Hh). repeat split; auto.
    + destruct (pdata p); auto.
    + now destruct (pptype p).
    + intros h Hin. destruct h as [x y|]; [|reflexivity]. rewrite negb_true_iff, orb_false_iff.
      apply Hh. cbn in Hin. destruct Hin as [E|[E|[]]]; auto.
Qed.

Lemma gp_valid_iff (g : glifpoint) :
  gp_is_valid g = true <->
  gptype g <> Undefined /\
  forall f, gx g = IFloat f \/ gy g = IFloat f -> is_nan f = false /\ is_subnormal f = false.
Proof.
  unfold gp_is_valid. rewrite !andb_true_iff, !negb_true_iff. split.
  - intros ((Ht & Hx) & Hy). split; [intros E; now rewrite E in Ht|].
    intros f [E|E]; rewrite E in *; apply orb_false_iff in Hx || apply orb_false_iff in Hy; tauto.
  - intros (Ht & Hf). repeat split.
    + now destruct (gptype g).
    + destruct (gx g) as [z|f]; [reflexivity|]. apply orb_false_iff. specialize (Hf f (or_introl eq_refl)). tauto.
    + destruct (gy g) as [z|f]; [reflexivity|]. apply orb_false_iff. specialize (Hf f (or_intror eq_refl)). tauto.
Qed.
