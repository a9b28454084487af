(** Glif points to contours.  src/outline/create.rs. *)
Require Import Coq.Lists.List Coq.Bool.Bool Coq.ZArith.ZArith Coq.Floats.SpecFloat.
Require Import Verif.Model.Base Verif.Model.Float Verif.Model.Num Verif.Model.Point Verif.Model.Contour.
Import ListNotations.

Section Create.
Context (L : numlib) {PD : Type}.

(** The literal `2.` (f32).
    src/outline/create.rs L15. *)
Definition two32 : f32 := f32_of_Z 2.

(** src/outline/create.rs L9-16, one coordinate *)
Definition mid (a b : iof) : iof := iof_div_f32 L (iof_add L a b) two32.

(** src/outline/create.rs L35-42, L56-63, L67-74, L87-94: a point copied from a glif point
    (`..Default::default()` for handles and data). *)
Definition plain_point (g : glifpoint) : point PD :=
  mkPoint (f32_of_iof (gx g)) (f32_of_iof (gy g)) Colocated Colocated
          (gname g) (gptype g) (gsmooth g) None.

(** src/outline/create.rs L44-50, L96-101: an implied on-curve point. *)
Definition implied_point (x y : iof) (t : ptype) (name : option str) : point PD :=
  mkPoint (f32_of_iof x) (f32_of_iof y) Colocated Colocated name t false None.

(** src/outline/create.rs L24, L53. *)
Definition is_off (t : ptype) : bool := ptype_eqb t OffCurve.

(** src/outline/create.rs L22-76: loop body; state is the contour so far and the stack of
    pending off-curve points (front first). *)
Definition quad_step (st : contour PD * list glifpoint) (g : glifpoint)
  : contour PD * list glifpoint :=
  let '(contour, stack) := st in
  let stack := if is_off (gptype g) then stack ++ [g] else stack in
  match stack with
  | [h1; h2] =>
      (contour ++ [plain_point h1;
                   implied_point (mid (gx h1) (gx h2)) (mid (gy h1) (gy h2)) QCurve (gname g)],
       [h2])
  | _ =>
      if negb (is_off (gptype g)) then
        match stack with
        | h :: stack' => (contour ++ [plain_point h; plain_point g], stack')
        | [] => (contour ++ [plain_point g], [])
        end
      else (contour, stack)
  end.

(** src/outline/create.rs L18-106 *)
Definition quadratic_contour (gc : list glifpoint) : contour PD :=
  let '(contour, stack) := fold_left quad_step gc ([], []) in
  match stack with
  | h1 :: _ =>
      match contour with
      | h2 :: _ =>
          let t := if is_off (pptype h2) then QCurve else QClose in
          contour ++ [plain_point h1;
                      implied_point (mid (gx h1) (iof_of_f32 L (px h2)))
                                    (mid (gy h1) (iof_of_f32 L (py h2))) t None]
      | [] => contour
      end
  | [] => contour
  end.

(** `VecDeque::pop_front`
    src/outline/create.rs L31-32, L54, L78, L118-119, L143-144. *)
Definition pop {A} (s : list A) : option A * list A :=
  match s with [] => (None, []) | x :: t => (Some x, t) end.

(** src/outline/create.rs L112-141: loop body. *)
Definition cubic_step (st : contour PD * list glifpoint) (g : glifpoint)
  : res (contour PD * list glifpoint) :=
  let '(contour, stack) := st in
  match gptype g with
  | OffCurve => Ok (contour, stack ++ [g])
  | Line | Move | Curve =>
      let '(h1, stack) := pop stack in
      let '(h2, stack) := pop stack in
      let contour := map_last (fun p => with_a p (handle_of_gp h1)) contour in
      Ok (contour ++ [mkPoint (f32_of_iof (gx g)) (f32_of_iof (gy g))
                              (handle_of_gp h1) (handle_of_gp h2)
                              (gname g) (gptype g) (gsmooth g) None],
          stack)
  | QCurve => Panic                                  (* unreachable!, L136-138 *)
  | _ => Ok (contour, stack)
  end.

(** The `for` of `cubic_contour`, src/outline/create.rs L112-141. *)
Fixpoint cubic_loop (st : contour PD * list glifpoint) (gc : list glifpoint)
  : res (contour PD * list glifpoint) :=
  match gc with
  | [] => Ok st
  | g :: gc => let* st := cubic_step st g in cubic_loop st gc
  end.

(** src/outline/create.rs L108-163 *)
Definition cubic_contour (gc : list glifpoint) : res (contour PD) :=
  let* st := cubic_loop ([], []) gc in
  let '(contour, stack) := st in
  let '(h1, stack) := pop stack in
  let '(h2, _) := pop stack in
  let contour := map_last (fun p => with_a p (handle_of_gp h1)) contour in
  let contour :=
    match contour with
    | p :: _ =>
        if negb (ptype_eqb (pptype p) Move)
        then map_first (fun p => with_b p (handle_of_gp h2)) contour
        else contour
    | [] => contour
    end in
  match contour with
  | [p] => if ptype_eqb (pptype p) Move then Ok [] else Ok contour
  | _ => Ok contour
  end.

(** src/outline/create.rs L169-174: dispatch on the first point (`gc[0]`). *)
Definition contour_of_glif (gc : list glifpoint) : res (contour PD) :=
  match gc with
  | [] => Panic
  | g :: _ =>
      match gptype g with
      | Curve | Line | Move => cubic_contour gc
      | QCurve | QClose => Ok (quadratic_contour gc)
      | _ => Ok []
      end
  end.

(** src/outline/create.rs L165-183 *)
Definition outline_of_glif (gcs : list (list glifpoint)) : res (outline PD) :=
  let* cs := mapM contour_of_glif gcs in
  Ok (filter (fun c => match c with [] => false | _ => true end) cs).

End Create.
