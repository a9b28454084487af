(** Point type recomputation and rounding.  src/outline/refigure.rs. *)
Require Import Coq.Lists.List Coq.Bool.Bool Coq.Arith.Arith.
Require Import Verif.Model.Base Verif.Model.Float Verif.Model.Num Verif.Model.Point Verif.Model.Contour.
Import ListNotations.

Section Refigure.
Context {PD : Type}.

(** src/outline/refigure.rs L28-37: a handle exactly on its point becomes Colocated. *)
Definition knock (x y : f32) (h : handle) : handle :=
  match h with
  | At hx hy => if feq hx x && feq hy y then Colocated else h
  | Colocated => Colocated
  end.

(** src/outline/refigure.rs L48-74.  The `else if !open_contour && idx == 0` arm (L64-70) can
    never be taken: its condition is included in the first one. *)
Definition point_type_for_idx (c : contour PD) (i : nat) : res ptype :=
  let open_contour := is_open c in
  let* p := idx c i in
  match contour_prev_next_handles c i with
  | Panic => Panic
  | Err _ => Ok OffCurve                             (* PointType::default() *)
  | Ok ((prev_a, _), (_, next_b)) =>
      if negb open_contour || negb (i =? 0) then
        Ok (match prev_a, pb p with
            | Colocated, Colocated => Line
            | _, _ => Curve
            end)
      else if negb open_contour && (i =? 0) then
        Ok (match pa p, next_b with
            | Colocated, Colocated => Line
            | _, _ => Curve
            end)
      else Ok Move
  end.

(** src/outline/refigure.rs L27-39: one iteration of the loop. *)
Definition refigure_step (c : contour PD) (i : nat) : res (contour PD) :=
  let* p := idx c i in
  let p := with_a p (knock (px p) (py p) (pa p)) in
  let p := with_b p (knock (px p) (py p) (pb p)) in
  let c := set_nth c i p in
  let* t := point_type_for_idx c i in
  Ok (set_nth c i (with_ptype p t)).

(** The `for` of src/outline/refigure.rs L27-39. *)
Fixpoint refigure_loop (c : contour PD) (is : list nat) : res (contour PD) :=
  match is with
  | [] => Ok c
  | i :: is => let* c := refigure_step c i in refigure_loop c is
  end.

(** src/outline/refigure.rs L25-41 and, for outlines, L17-23. *)
Definition refigure (c : contour PD) : res (contour PD) := refigure_loop c (seq 0 (length c)).
(** src/outline/refigure.rs L17-23. *)
Definition refigure_outline (o : outline PD) : res (outline PD) := mapM refigure o.

(** src/outline/refigure.rs L86-91 *)
Definition round_to_int (p : point PD) : point PD := with_xy p (round32 (px p)) (round32 (py p)).

End Refigure.

(** src/outline/refigure.rs L93-98 *)
Definition gp_round_to_int (g : glifpoint) : glifpoint :=
  mkGP (IInt (f32_as_i32 (round32 (f32_of_iof (gx g)))))
       (IInt (f32_as_i32 (round32 (f32_of_iof (gy g)))))
       (gsmooth g) (gname g) (gptype g).
