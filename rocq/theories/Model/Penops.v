(** Pen operations.  src/outline/conv/penops.rs. *)
Require Import Coq.Lists.List Coq.Bool.Bool Coq.Arith.Arith.
Require Import Verif.Model.Base Verif.Model.Float Verif.Model.Num Verif.Model.Point
  Verif.Model.Contour Verif.Model.Refigure.
Import ListNotations.

(** src/outline/conv/penops.rs L12-19 *)
Inductive penop :=
| MoveTo (p : glifpoint)
| LineTo (p : glifpoint)
| QuadTo (a p : glifpoint)
| CurveTo (a b p : glifpoint)
| Close.

(** src/outline/conv/penops.rs L24-32 *)
Definition penop_len (o : penop) : nat :=
  match o with MoveTo _ | LineTo _ => 1 | QuadTo _ _ => 2 | CurveTo _ _ _ => 3 | Close => 0 end.

(** src/outline/conv/penops.rs L75-83 *)
Definition penop_points (o : penop) : list glifpoint :=
  match o with
  | MoveTo p => [p]
  | LineTo p => [p]
  | QuadTo a p => [a; p]
  | CurveTo a b p => [a; b; p]
  | Close => []
  end.

(** src/outline/conv/penops.rs L51-71 *)
Definition penop_is_valid (o : penop) : bool :=
  match o with
  | MoveTo p => ptype_eqb (gptype p) Move && gp_is_valid p
  | LineTo p => ptype_eqb (gptype p) Line && gp_is_valid p
  | QuadTo a p =>
      negb (ptype_eqb (gptype p) OffCurve) && gp_is_valid p
      && ptype_eqb (gptype a) OffCurve && gp_is_valid a
  | CurveTo a b p =>
      negb (ptype_eqb (gptype p) OffCurve) && gp_is_valid p
      && ptype_eqb (gptype a) OffCurve && gp_is_valid a
      && ptype_eqb (gptype b) OffCurve && gp_is_valid b
  | Close => true
  end.

(** src/outline/kurbo.rs L36-46 *)
Definition ptype_of_penop (o : penop) : ptype :=
  match o with
  | MoveTo _ => Move | LineTo _ => Line | QuadTo _ _ => QCurve | CurveTo _ _ _ => Curve
  | Close => QClose
  end.

(** `is_move_to`, derived, src/outline/conv/penops.rs L180. *)
Definition is_move_to (o : penop) : bool := match o with MoveTo _ => true | _ => false end.

(** Vec::pop on a non-empty vector (panics through `unwrap` if empty).
    src/outline/conv/penops.rs L106, L264. *)
Definition pop_unwrap {A} (l : list A) : res (list A) :=
  match l with [] => Panic | _ => Ok (removelast l) end.

Section Penops.
Context (L : numlib) {PD : Type}.

(** `Default for PenOperations`, src/outline/conv/penops.rs L42-47. *)
Definition penop_default : penop := MoveTo (gp_from_x_y_type L pos_zero pos_zero Move).

(** src/outline/conv/penops.rs L34-40 *)
Definition simplify (o : penop) : penop :=
  match o with
  | CurveTo a b p =>
      if iof_eqb L (gx p) (gx a) && iof_eqb L (gy p) (gy a)
         && iof_eqb L (gx p) (gx b) && iof_eqb L (gy p) (gy b)
      then LineTo p else o
  | _ => o
  end.

(** src/outline/conv/penops.rs L101-131: one iteration (point number i) of the loop. *)
Definition penop_step (c : contour PD) (vec : list penop) (i : nat) : res (list penop) :=
  let* p := idx c i in
  match pptype p with
  | Move => Ok (vec ++ [MoveTo (gp_of_point L p)])
  | Line =>
      if i =? 1 then
        let* vec := pop_unwrap vec in
        Ok (vec ++ [LineTo (gp_of_point L p)])
      else Ok (vec ++ [LineTo (gp_of_point L p)])
  | QCurve => Ok (vec ++ [QuadTo (gp_from_handle L p WA) (gp_of_point L p)])
  | Curve =>
      match contour_prev_next c i with
      | Ok (_, Some nx) =>
          let* q := idx c nx in
          Ok (vec ++ [CurveTo (gp_from_handle L p WA) (gp_from_handle L q WB) (gp_of_point L q)])
      | Ok (Some pr, None) =>
          let* q := idx c pr in
          Ok (vec ++ [CurveTo (gp_from_handle L q WA) (gp_from_handle L p WB) (gp_of_point L p)])
      | _ => Panic                                   (* unwrap of Err, or unreachable! *)
      end
  | t => Err (EContourBadPointType i t)
  end.

(** src/outline/conv/penops.rs L101-131. *)
Fixpoint penop_loop (c : contour PD) (vec : list penop) (is : list nat) : res (list penop) :=
  match is with
  | [] => Ok vec
  | i :: is => let* vec := penop_step c vec i in penop_loop c vec is
  end.

(** src/outline/conv/penops.rs L92-145.  Returns the operations and the contour after the
    refigure it triggers. *)
Definition into_pen_operations (c : contour PD) : res (list penop * contour PD) :=
  let closed := is_closed c in
  let* c := refigure c in
  let* start := (if closed then
                   match c with [] => Panic | p :: _ => Ok [MoveTo (gp_of_point L p)] end
                 else Ok []) in
  let* vec := penop_loop c start (seq 0 (length c)) in
  if closed then
    match c, rev c with
    | first :: _, last :: _ =>
        let vec :=
          if ptype_eqb (pptype last) Curve && ptype_eqb (pptype first) Curve then
            map_last (fun o => match o with
                               | CurveTo p1 p2 _ => CurveTo p1 p2 (gp_of_point L first)
                               | o => o
                               end) vec
          else vec in
        Ok (vec ++ [Close], c)
    | _, _ => Panic
    end
  else Ok (vec, c).

(** src/outline/conv/penops.rs L178-193: one iteration of the loop. *)
Definition split_step (st : list (list penop) * list penop) (o : penop)
  : res (list (list penop) * list penop) :=
  let '(koutline, kcontour) := st in
  if is_move_to o then
    Ok (if 0 <? length kcontour then koutline ++ [kcontour] else koutline, [o])
  else if 0 <? penop_len o then Ok (koutline, kcontour ++ [o])
  else
    match kcontour with                              (* kcontour.remove(0).unwrap_move_to() *)
    | MoveTo rm :: rest => Ok (koutline, CurveTo rm rm rm :: rest)
    | _ => Panic
    end.
(** src/outline/conv/penops.rs L178-193. *)
Fixpoint split_loop (st : list (list penop) * list penop) (l : list penop)
  : res (list (list penop) * list penop) :=
  match l with
  | [] => Ok st
  | o :: l => let* st := split_step st o in split_loop st l
  end.

(** src/outline/conv/penops.rs L168-200 *)
Definition split_pen_operations (l : list penop) : res (list (list penop)) :=
  if length l <=? 1 then Ok [[]]
  else
    let* st := split_loop ([], []) l in
    let '(koutline, kcontour) := st in
    Ok (if 0 <? length kcontour then koutline ++ [kcontour] else koutline).

(** src/outline/conv/penops.rs L161-165 *)
Definition penops_is_valid (l : list penop) : res bool :=
  let* cs := split_pen_operations l in Ok (length cs =? 1).

(** `Handle::At(p.x.into(), p.y.into())`, src/outline/conv/penops.rs L239, L242, L251. *)
Definition handle_at_gp (g : glifpoint) : handle := At (f32_of_iof (gx g)) (f32_of_iof (gy g)).

(** src/outline/conv/penops.rs L211-257: the point made for one operation, given the points of
    the next one (cyclically). *)
Definition outline_point (el : penop) (points next_points : list glifpoint) : res (list (point PD)) :=
  match points with
  | [] => Ok []                                      (* continue *)
  | p0 :: _ =>
      let base t a b := mkPoint (f32_of_iof (gx p0)) (f32_of_iof (gy p0)) a b None t false None in
      let after := match next_points with
                   | [_; _; q] => Some (handle_at_gp q)
                   | _ => None
                   end in
      match ptype_of_penop el with
      | Move => Ok [base Move Colocated Colocated]
      | Curve =>
          let a := match after with Some h => h | None => Colocated end in
          let b := match nth_error points 1 with Some q => handle_at_gp q | None => Colocated end in
          Ok [base Curve a b]
      | Line =>
          match after with
          | Some h => Ok [base Curve h Colocated]
          | None => Ok [base Line Colocated Colocated]
          end
      | _ => Panic                                   (* unreachable! *)
      end
  end.

(** src/outline/conv/penops.rs L211-257: the loop over the operations of one contour. *)
Fixpoint outline_points (skc : list penop) (is : list nat) : res (contour PD) :=
  match is with
  | [] => Ok []
  | i :: is =>
      let* el := idx skc i in
      let* nx := idx skc (if i =? length skc - 1 then 0 else i + 1) in
      let* ps := outline_point el (penop_points el) (penop_points nx) in
      let* rest := outline_points skc is in
      Ok (ps ++ rest)
  end.

(** src/outline/conv/penops.rs L259-267 *)
Definition merge_ends (c : contour PD) : contour PD :=
  match c with
  | first :: _ :: _ =>
      match rev c with
      | last :: _ =>
          if feq (px last) (px first) && feq (py last) (py first)
          then map_first (fun p => with_b p (pb last)) (removelast c)
          else c
      | [] => c
      end
  | _ => c
  end.

(** src/outline/conv/penops.rs L203-272 *)
Definition penops_to_contour (skc : list penop) : res (contour PD) :=
  let* c := outline_points skc (seq 0 (length skc)) in Ok (merge_ends c).
(** src/outline/conv/penops.rs L203-273. *)
Definition penops_to_outline (path : list (list penop)) : res (outline PD) :=
  mapM penops_to_contour path.

End Penops.
