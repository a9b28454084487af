(** What a Skia path draws, and what a contour draws. *)
Require Import Coq.Lists.List Coq.Arith.Arith.
Require Import Verif.Model.Base Verif.Model.Float Verif.Model.Num Verif.Model.Point Verif.Model.Kurbo
  Verif.Model.Skia Verif.Spec.ContourSpec Verif.Spec.PathSpec.
Import ListNotations.
Local Open Scope nat_scope.

(** * Strokes *)
Inductive stroke :=
| SLine (p q : skpoint)
| SQuad (p a q : skpoint)
| SCubic (p a b q : skpoint).
Definition stroke_to (s : stroke) : skpoint :=
  match s with SLine _ q => q | SQuad _ _ q => q | SCubic _ _ _ q => q end.
Definition stroke_from (s : stroke) : skpoint :=
  match s with SLine p _ => p | SQuad p _ _ => p | SCubic p _ _ _ => p end.
Definition is_line (s : stroke) : Prop := match s with SLine _ _ => True | _ => False end.
Definition is_cubic (s : stroke) : Prop := match s with SCubic _ _ _ _ => True | _ => False end.

(** The stroke of a segment, with all its points moved by tx and ty. *)
Section Look.
Context (tx ty : f32 -> f32).
Definition moved (p : f32 * f32) : skpoint := (tx (fst p), ty (snd p)).
Definition sk_look (s : segment) : stroke :=
  let p := moved (sg_from s) in
  let q := moved (sg_to s) in
  let a := moved (handle_at (sg_from s) (sg_out s)) in
  let b := moved (handle_at (sg_to s) (sg_in s)) in
  match sg_kind s with
  | Line => SLine p q
  | QCurve => SQuad p a q
  | _ => SCubic p a b q
  end.
End Look.

(** The segments of a contour: no segment back to the start if the first point is a Move. *)
Definition segments {PD} (c : list (point PD)) : list segment :=
  match c with
  | [] => []
  | p :: _ => match pptype p with Move => open_segments c | _ => closed_segments c end
  end.
(** What a contour draws. *)
Definition strokes {PD} (c : list (point PD)) : list stroke :=
  map (sk_look (fun x => x) (fun y => y)) (segments c).

(** Contours that are on-curve points of a drawable type. *)
Definition drawable (t : ptype) : Prop := t = Line \/ t = Curve \/ t = QCurve.
Definition drawable_contour {PD} (c : list (point PD)) : Prop :=
  exists p t, c = p :: t /\ (pptype p = Move \/ drawable (pptype p)) /\ Forall (fun q => drawable (pptype q)) t.

(** * Paths made of subpaths *)
Inductive piece :=
| PLine (q : skpoint)
| PQuad (a q : skpoint)
| PConic (a q : skpoint) (w : f32)
| PCubic (a b q : skpoint).
Record subpath := mkSub { s_start : skpoint; s_pieces : list piece; s_closed : bool }.
Definition piece_to (g : piece) : skpoint :=
  match g with PLine q => q | PQuad _ q => q | PConic _ q _ => q | PCubic _ _ q => q end.
Definition verb (g : piece) : skverb :=
  match g with
  | PLine q => SkLine q | PQuad a q => SkQuad a q | PConic a q w => SkConic a q w | PCubic a b q => SkCubic a b q
  end.
Definition verbs (s : subpath) : skpath :=
  SkMove (s_start s) :: map verb (s_pieces s) ++ if s_closed s then [SkClose] else [].
Definition s_end (s : subpath) : skpoint := last (map piece_to (s_pieces s)) (s_start s).

(** What the pieces draw, beginning at a point; conics are left out here. *)
Fixpoint plain (cur : skpoint) (l : list piece) : list stroke :=
  match l with
  | [] => []
  | PLine q :: l => SLine cur q :: plain q l
  | PQuad a q :: l => SQuad cur a q :: plain q l
  | PConic a q _ :: l => plain q l
  | PCubic a b q :: l => SCubic cur a b q :: plain q l
  end.
Definition no_conics (s : subpath) : Prop :=
  Forall (fun g => match g with PConic _ _ _ => False | _ => True end) (s_pieces s).
(** Closing draws the line back to the start; none is needed if the pen is already there. *)
Definition draws (s : subpath) (l : list stroke) : Prop :=
  if s_closed s
  then (s_end s = s_start s /\ l = plain (s_start s) (s_pieces s)) \/
       l = plain (s_start s) (s_pieces s) ++ [SLine (s_end s) (s_start s)]
  else l = plain (s_start s) (s_pieces s).

(** * Lines and cubic curves only *)
(** A quadratic curve as a cubic one (the rule of two thirds, in f32 arithmetic: see C43). *)
Definition thirds (p a : f32) : f32 := add32 p (mul32 two_thirds32 (sub32 a p)).
Definition elevated (p a q : skpoint) : stroke :=
  SCubic p (thirds (fst p) (fst a), thirds (snd p) (snd a)) (thirds (fst q) (fst a), thirds (snd q) (snd a)) q.

Section Conic.
(** The points of two quadratic curves for a conic. *)
Context (conic : skpoint -> skpoint -> skpoint -> f32 -> skpoint * skpoint * skpoint * skpoint * skpoint).
Definition keeps_ends : Prop :=
  forall p a q w q0 q1 q2 q3 q4, conic p a q w = (q0, q1, q2, q3, q4) -> q0 = p /\ q4 = q.
Definition of_piece (cur : skpoint) (g : piece) : list stroke :=
  match g with
  | PLine q => [SLine cur q]
  | PQuad a q => [elevated cur a q]
  | PConic a q w => let '(q0, q1, q2, q3, q4) := conic cur a q w in [elevated q0 q1 q2; elevated q2 q3 q4]
  | PCubic a b q => [SCubic cur a b q]
  end.
Fixpoint of_pieces (cur : skpoint) (l : list piece) : list stroke :=
  match l with [] => [] | g :: l => of_piece cur g ++ of_pieces (piece_to g) l end.
Definition sub_strokes (s : subpath) : list stroke :=
  of_pieces (s_start s) (s_pieces s) ++
  if s_closed s then if sk_eqb (s_end s) (s_start s) then [] else [SLine (s_end s) (s_start s)] else [].
End Conic.

(** No coordinate is a NaN. *)
Definition proper (p : skpoint) : Prop := is_nan (fst p) = false /\ is_nan (snd p) = false.
Definition proper_stroke (s : stroke) : Prop :=
  match s with
  | SLine p q => proper p /\ proper q
  | SQuad p a q => proper p /\ proper a /\ proper q
  | SCubic p a b q => proper p /\ proper a /\ proper b /\ proper q
  end.
Definition proper_sub conic (s : subpath) : Prop :=
  proper (s_start s) /\ proper (s_end s) /\ Forall proper_stroke (sub_strokes conic s).

(** The same curve: a line is the cubic curve whose control points are its ends. *)
Definition as_cubic (s : stroke) : skpoint * skpoint * skpoint * skpoint :=
  match s with
  | SLine p q => (p, p, q, q)
  | SQuad p a q => match elevated p a q with SCubic p a b q => (p, a, b, q) | _ => (p, a, a, q) end
  | SCubic p a b q => (p, a, b, q)
  end.
Definition same_curve (s t : stroke) : Prop :=
  let '(p, a, b, q) := as_cubic s in
  let '(p', a', b', q') := as_cubic t in
  same_place p p' /\ same_place a a' /\ same_place b b' /\ same_place q q'.

(** A closed subpath that is a single curve. *)
Definition lone_loop conic (s : subpath) : Prop :=
  s_closed s = true /\ exists p a b q, sub_strokes conic s = [SCubic p a b q].
(** A closed subpath that begins with a line and ends with a curve. *)
Definition line_then_curve conic (s : subpath) : Prop :=
  s_closed s = true /\ exists p q l p' a b q', sub_strokes conic s = SLine p q :: l ++ [SCubic p' a b q'].
(** Subpaths that draw nothing and are left out: closed ones; a lone MoveTo at the very end. *)
Fixpoint kept_subs (l : list subpath) : list subpath :=
  match l with
  | [] => []
  | s :: t =>
      match s_pieces s, s_closed s, t with
      | [], true, _ => kept_subs t
      | [], false, [] => []
      | _, _, _ => s :: kept_subs t
      end
  end.

(** * There and back *)
(** The stroke as a line or a cubic curve. *)
Definition cubified (s : stroke) : stroke := match s with SQuad p a q => elevated p a q | _ => s end.
(** Nothing the contour draws has a NaN in it. *)
Definition proper_contour {PD} (c : list (point PD)) : Prop := Forall proper_stroke (map cubified (strokes c)).
Definition closed_contour {PD} (c : list (point PD)) : Prop := forall p t, c = p :: t -> pptype p <> Move.
(** A closed contour whose last segment is a line of no length. *)
Definition idle_end {PD} (c : list (point PD)) : Prop :=
  closed_contour c /\ exists l p q, strokes c = l ++ [SLine p q] /\ same_place p q.
(** What is left of the strokes of a contour without such a line. *)
Definition busy_strokes {PD} (c : list (point PD)) (l : list stroke) : Prop :=
  (idle_end c /\ exists p q, strokes c = l ++ [SLine p q]) \/ (~ idle_end c /\ l = strokes c).
(** Strokes that begin with a line and end with a curve. *)
Definition line_to_curve (l : list stroke) : Prop :=
  exists a m b, l = a :: m ++ [b] /\ is_line a /\ ~ is_line b.
(** A closed contour that begins with a line and ends with a curve. *)
Definition line_first_curve_last {PD} (c : list (point PD)) : Prop :=
  exists p q t, c = p :: q :: t /\ pptype q = Line /\ (pptype p = Curve \/ pptype p = QCurve).
