(** Skia paths.  src/outline/skia/to.rs, src/outline/skia/from.rs, and the MFEK version in
    src/glif/mfek/mod.rs.

    `skia::Path` and its iterator are external (crate skia_safe); they are modelled here after
    the documented behaviour of SkPath: a path is the list of its verbs with their points. *)
Require Import Coq.Lists.List Coq.Bool.Bool Coq.Arith.Arith Coq.Floats.SpecFloat.
Require Import Verif.Model.Base Verif.Model.Float Verif.Model.Num Verif.Model.Point
  Verif.Model.Contour Verif.Model.Kurbo Verif.Model.Mfek.
Import ListNotations.

(** skia::Point (external)
    src/outline/skia/from.rs L16. *)
Definition skpoint : Type := f32 * f32.
(** `==` of skia::Point
    src/outline/skia/from.rs L262. *)
Definition sk_eqb (p q : skpoint) : bool := feq (fst p) (fst q) && feq (snd p) (snd q).
(** NaN test inside SkPath::Iter, called at src/outline/skia/from.rs L45-52. *)
Definition sk_nan (p : skpoint) : bool := is_nan (fst p) || is_nan (snd p).

(** skia::Path (external): its verbs.
    src/outline/skia/to.rs L109-146, src/outline/skia/from.rs L24-34. *)
Inductive skverb :=
| SkMove (p : skpoint)
| SkLine (p : skpoint)
| SkQuad (a p : skpoint)
| SkConic (a p : skpoint) (w : f32)
| SkCubic (a b p : skpoint)
| SkClose.
(** src/outline/skia/to.rs L101. *)
Definition skpath : Type := list skverb.

(** skia::Path::count_points (external)
    src/outline/skia/to.rs L83, L87. *)
Definition sk_count (v : skverb) : nat :=
  match v with
  | SkMove _ | SkLine _ => 1 | SkQuad _ _ | SkConic _ _ _ => 2 | SkCubic _ _ _ => 3 | SkClose => 0
  end.
(** src/outline/skia/to.rs L83, L87. *)
Definition count_points (p : skpath) : nat := list_sum (map sk_count p).

(** * From contours to paths *)
Section To.
Context {PD : Type} (tx ty : f32 -> f32).

(** `(calc_x(point.x), calc_y(point.y))`, src/outline/skia/to.rs L109, L117, L122. *)
Definition sk_at (p : point PD) : skpoint := (tx (px p), ty (py p)).
(** src/outline/skia/to.rs L120-125, L135-138. *)
Definition sk_handle (p : point PD) (w : which) : skpoint := handle_or_colocated p w tx ty.

(** src/outline/skia/to.rs L111-132: the loop over the points after the first.  Appending to
    the path is modelled as appending a verb; the path always begins with a MoveTo and is not
    yet closed, so Skia inserts none of its own. *)
Fixpoint sk_loop (prev : point PD) (l : list (point PD)) : skpath :=
  match l with
  | [] => []
  | p :: l =>
      match pptype p with
      | Line => [SkLine (sk_at p)]
      | Curve => [SkCubic (sk_handle prev WA) (sk_handle p WB) (sk_at p)]
      | QCurve => [SkQuad (sk_handle prev WA) (sk_at p)]
      | _ => []
      end ++ sk_loop p l
  end.

(** src/outline/skia/to.rs L134-147 *)
Definition sk_closing (first lst : point PD) : skpath :=
  if ptype_eqb (pptype first) Move then []
  else
    match pptype first with
    | Curve => [SkCubic (sk_handle lst WA) (sk_handle first WB) (sk_at first)]
    | QCurve => [SkQuad (sk_handle lst WA) (sk_at first)]
    | _ => []
    end ++ [SkClose].

(** src/outline/skia/to.rs L94-151 *)
Definition to_skia_path (c : contour PD) : option skpath :=
  match c with
  | [] => None
  | first :: t => Some (SkMove (sk_at first) :: sk_loop first t ++ sk_closing first (last c first))
  end.

(** src/outline/skia/to.rs L11-15 *)
Record skpaths := mkPaths { sk_open : option skpath; sk_closed : option skpath }.

(** src/outline/skia/to.rs L70-82: the loop; `add_path` in Append mode appends the verbs. *)
Fixpoint skpaths_loop (o : list (contour PD)) (op cl : skpath) : res (skpath * skpath) :=
  match o with
  | [] => Ok (op, cl)
  | [] :: o => skpaths_loop o op cl
  | ((first :: _) as c) :: o =>
      match to_skia_path c with
      | None => Panic                                (* unwrap *)
      | Some s =>
          if ptype_eqb (pptype first) Move then skpaths_loop o (op ++ s) cl
          else skpaths_loop o op (cl ++ s)
      end
  end.
(** src/outline/skia/to.rs L83-91. *)
Definition skpaths_result (st : skpath * skpath) : skpaths :=
  mkPaths (if 0 <? count_points (fst st) then Some (fst st) else None)
          (if 0 <? count_points (snd st) then Some (snd st) else None).
(** src/outline/skia/to.rs L60-92 *)
Definition to_skia_paths (o : outline PD) : res skpaths :=
  let* st := skpaths_loop o [] [] in Ok (skpaths_result st).

(** src/outline/skia/to.rs L17-24 *)
Definition combined (s : skpaths) : skpath :=
  match sk_open s with Some p => p | None => [] end ++ match sk_closed s with Some p => p | None => [] end.

(** src/glif/mfek/mod.rs L138-172: the loop over MFEK contours; panics on the first contour that
    is not cubic. *)
Fixpoint mfek_skpaths_loop (o : moutline PD) (op cl : skpath) : res (skpath * skpath) :=
  match o with
  | [] => Ok (op, cl)
  | c :: o =>
      match mc_inner c with
      | Cubic [] => mfek_skpaths_loop o op cl
      | Cubic ((first :: _) as l) =>
          match to_skia_path l with
          | None => Panic
          | Some s =>
              if ptype_eqb (pptype first) Move then mfek_skpaths_loop o (op ++ s) cl
              else mfek_skpaths_loop o op (cl ++ s)
          end
      | _ => Panic
      end
  end.
(** src/glif/mfek/mod.rs L138-173. *)
Definition mfek_to_skia_paths (o : moutline PD) : res skpaths :=
  let* st := mfek_skpaths_loop o [] [] in Ok (skpaths_result st).

End To.

(** * From paths to contours *)

(** src/outline/skia/from.rs L17: SkPointTuple *)
Definition sktuple : Type := ptype * list skpoint * option f32.
(** `SkContour`, src/outline/skia/from.rs L17. *)
Definition skcontour : Type := list sktuple.

(** What skia::path::Iter yields (external; SkPath::Iter::next with forceClose = false).
    src/outline/skia/from.rs L45-63. *)
Inductive skevent := Draw (t : ptype) (pts : list skpoint) (w : option f32) | EClose.

(** SkPath::Iter::autoClose: a line back to the start of the contour, unless the pen is there or
    a coordinate is a NaN.
    Called at src/outline/skia/from.rs L45-52. *)
Definition auto_close (lst start : skpoint) : list skevent :=
  if sk_eqb lst start || sk_nan lst || sk_nan start then [] else [Draw Line [lst; start] None].

(** SkPath::Iter::next, repeated until Done.  Every verb comes with the point before it; a MoveTo
    at the very end is not reported.
    Called at src/outline/skia/from.rs L45-52. *)
Fixpoint sk_iter (lst start : skpoint) (l : skpath) : list skevent :=
  match l with
  | [] => []
  | [SkMove _] => []
  | SkMove p :: l => Draw Move [p] None :: sk_iter p p l
  | SkLine p :: l => Draw Line [lst; p] None :: sk_iter p start l
  | SkQuad a p :: l => Draw QCurve [lst; a; p] None :: sk_iter p start l
  | SkConic a p w :: l => Draw QCurve [lst; a; p] (Some w) :: sk_iter p start l
  | SkCubic a b p :: l => Draw Curve [lst; a; b; p] None :: sk_iter p start l
  | SkClose :: l => auto_close lst start ++ EClose :: sk_iter start start l
  end.

(** src/outline/skia/from.rs L53-79: one iteration of the loop.  The debug_assert on the first
    element gives a panic only in debug builds. *)
Definition sk_split_step (dbg : bool) (st : list skcontour * skcontour) (e : skevent)
  : res (list skcontour * skcontour) :=
  let '(o, c) := st in
  match e with
  | Draw Move pts w => Ok (if 0 <? length c then o ++ [c] else o, [(Move, pts, w)])
  | Draw t pts w => Ok (o, c ++ [(t, pts, w)])
  | EClose =>
      match c with
      | [] => Panic                                  (* skcontour[0], or remove(0) *)
      | (t, _, _) :: rest => if dbg && negb (ptype_eqb t Move) then Panic else Ok (o, rest)
      end
  end.
(** src/outline/skia/from.rs L52-78. *)
Fixpoint sk_split_loop (dbg : bool) (st : list skcontour * skcontour) (l : list skevent)
  : res (list skcontour * skcontour) :=
  match l with
  | [] => Ok st
  | e :: l => let* st := sk_split_step dbg st e in sk_split_loop dbg st l
  end.
(** src/outline/skia/from.rs L40-86 *)
Definition split_skia_path (dbg : bool) (p : skpath) : res (list skcontour) :=
  let* st := sk_split_loop dbg ([], []) (sk_iter (pos_zero, pos_zero) (pos_zero, pos_zero) p) in
  let '(o, c) := st in
  Ok (if 0 <? length c then o ++ [c] else o).

(** src/outline/quad_to_cubic.rs L9-18 for skia points *)
Definition sk_quad_to_cubic (p0 p1 p2 : skpoint) : list skpoint :=
  let '(_, x1, x2, _) := quad_to_cubic_coord (fst p0) (fst p1) (fst p2) in
  let '(_, y1, y2, _) := quad_to_cubic_coord (snd p0) (snd p1) (snd p2) in
  [p0; (x1, y1); (x2, y2); p2].

Section From.
(** SkPath::ConvertConicToQuads with pow2 = 1 (external): five points, two quadratic curves. *)
Context (conic : skpoint -> skpoint -> skpoint -> f32 -> skpoint * skpoint * skpoint * skpoint * skpoint).
Context {PD : Type} (dbg : bool).

(** src/outline/skia/from.rs L95-117: conics become five points.  debug_assert_eq on the number of
    points; indexing panics if there are fewer than three. *)
Definition conic_points (t : sktuple) : res sktuple :=
  match t with
  | (ty, pts, None) => Ok t
  | (ty, pts, Some w) =>
      if dbg && negb (length pts =? 3) then Panic
      else
        match pts with
        | p0 :: p1 :: p2 :: _ =>
            let '(q0, q1, q2, q3, q4) := conic p0 p1 p2 w in
            Ok (ty, [q0; q1; q2; q3; q4], Some (S754_infinity false))
        | _ => Panic
        end
  end.
(** src/outline/skia/from.rs L125-146: quadratic curves become cubic ones. *)
Definition quads_to_cubics (t : sktuple) : res (list sktuple) :=
  let '(ty, pts, w) := t in
  match ty with
  | QCurve =>
      match pts with
      | [p0; p1; p2] => Ok [(Curve, sk_quad_to_cubic p0 p1 p2, None)]
      | [p0; p1; p2; p3; p4] =>
          Ok [(Curve, sk_quad_to_cubic p0 p1 p2, None); (Curve, sk_quad_to_cubic p2 p3 p4, None)]
      | _ => Panic                                   (* assert! *)
      end
  | _ => Ok [t]
  end.
(** src/outline/skia/from.rs L92-153 *)
Definition conics_to_cubics (o : list skcontour) : res (list skcontour) :=
  let* o := mapM (mapM conic_points) o in
  mapM (fun c => let* l := mapM quads_to_cubics c in Ok (concat l)) o.

(** `Handle::At(p.x, p.y)`, src/outline/skia/from.rs L204-220, L263. *)
Definition sk_handle_at (p : skpoint) : handle := At (fst p) (snd p).

(** src/outline/skia/from.rs L182-230: the loop over the elements of a contour, number i being
    next, with the points made so far. *)
Definition from_step (skc : skcontour) (c : contour PD) (i : nat) : res (contour PD) :=
  let* first := idx skc 0 in
  let* skp := idx skc i in
  let '(ty, pts, w) := skp in
  if dbg && match w with Some f => is_finite f | None => false end then Panic
  else
  let* prev := idx skc (if i =? 0 then length skc - 1 else i - 1) in
  let* p0 := idx pts 0 in
  let base t a b := mkPoint (fst p0) (snd p0) a b None t false None : point PD in
  match ty with
  | Move => Ok (c ++ [base Move Colocated Colocated])
  | Curve =>
      let* p1 := idx pts 1 in
      let* b := (if ptype_eqb (fst (fst prev)) Curve
                 then let* q := idx (snd (fst prev)) 2 in Ok (sk_handle_at q)
                 else Ok Colocated) in
      let* c :=
        (if i =? length skc - 1 then
           let* c :=
             (if ptype_eqb (fst (fst first)) Curve then
                let* q := idx (snd (fst first)) 1 in
                match c with [] => Panic | p :: t => Ok (with_a p (sk_handle_at q) :: t) end
              else Ok c) in
           let* q := idx pts 2 in
           match c with [] => Panic | p :: t => Ok (with_b p (sk_handle_at q) :: t) end
         else Ok c) in
      Ok (c ++ [base Curve (sk_handle_at p1) b])
  | Line =>
      if negb (i =? 0) && ptype_eqb (fst (fst prev)) Curve then
        let* q := idx (snd (fst prev)) 2 in
        Ok (c ++ [base Curve Colocated (sk_handle_at q)])
      else Ok (c ++ [base Line Colocated Colocated])
  | _ => Panic                                       (* unreachable! *)
  end.
(** src/outline/skia/from.rs L179-226. *)
Fixpoint from_loop (skc : skcontour) (c : contour PD) (is : list nat) : res (contour PD) :=
  match is with
  | [] => Ok c
  | i :: is => let* c := from_step skc c i in from_loop skc c is
  end.

(** src/outline/skia/from.rs L242-265: the last point of an open contour. *)
Definition push_last (c : contour PD) (skc : skcontour) (lst : point PD) : res (contour PD) :=
  match pptype lst with
  | Curve | Line =>
      let* e := idx skc (length skc - 1) in
      match snd (fst e) with
      | [_; p] => Ok (c ++ [mkPoint (fst p) (snd p) Colocated Colocated None Line false None])
      | [_; _; h; p] =>
          let b := if sk_eqb p h then Colocated else sk_handle_at h in
          Ok (c ++ [mkPoint (fst p) (snd p) Colocated b None Curve false None])
      | _ => Panic                                   (* unreachable! *)
      end
  | _ => Ok c
  end.
(** src/outline/skia/from.rs L267-272: the Move and the point at the same spot become one. *)
Definition merge_first (first : point PD) (c : contour PD) : contour PD :=
  match c with
  | p :: q :: t =>
      if feq (px q) (px first) && feq (py q) (py first) then with_b (with_a p (pa q)) (pb q) :: t else c
  | _ => c
  end.
(** src/outline/skia/from.rs L239-275 *)
Definition fixup_skia_open_contour (c : contour PD) (skc : skcontour) : res (contour PD) :=
  match c with
  | [] => Panic
  | first :: _ => let* c := push_last c skc (last c first) in Ok (merge_first first c)
  end.

(** src/outline/skia/from.rs L176-236: one contour; `skc[0]` panics on an empty one. *)
Definition from_skcontour (skc : skcontour) : res (contour PD) :=
  let* _ := idx skc 0 in
  let* c := from_loop skc [] (seq 0 (length skc)) in
  match c with
  | p :: _ => if ptype_eqb (pptype p) Move then fixup_skia_open_contour c skc else Ok c
  | [] => Ok c
  end.
(** src/outline/skia/from.rs L166-237 *)
Definition from_skoutline (o : list skcontour) : res (outline PD) := mapM from_skcontour o.

(** src/outline/skia/from.rs L158-162 *)
Definition from_skia_path (p : skpath) : res (outline PD) :=
  let* o := split_skia_path dbg p in
  let* o := conics_to_cubics o in
  from_skoutline o.

End From.
