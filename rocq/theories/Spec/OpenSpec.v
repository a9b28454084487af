(** Which documents can be opened and saved again, and what is kept. *)
Require Import Coq.Strings.String Coq.Lists.List Coq.NArith.NArith Coq.ZArith.ZArith Coq.Floats.SpecFloat.
Require Import Verif.Model.Base Verif.Model.Text Verif.Model.Float Verif.Model.Num Verif.Model.Point Verif.Model.Names Verif.Model.Color
  Verif.Model.Xml Verif.Model.Parts Verif.Spec.OutlineSpec Verif.Spec.GlyphSpec Verif.Spec.DocumentSpec.
Import ListNotations.
Local Open Scope string_scope.
Local Open Scope list_scope.

(** The `contour` elements a glyph is read from. *)
Definition contours_in (root : element) : list element :=
  match named "outline" root with [] => [] | o :: _ => named "contour" o end.

(** A contour of lines and cubic curves: no `qcurve`, `move` only at its start. *)
Definition plain_contour (ce : element) : Prop :=
  forall pre e post, named "point" ce = pre ++ e :: post ->
    get e "type" <> Some (lit "qcurve") /\ (pre <> [] -> get e "type" <> Some (lit "move")).

(** A quadratic contour that ends in a control point. *)
Definition loose_end (ce : element) : Prop :=
  exists f t, named "point" ce = f :: t /\ get f "type" = Some (lit "qcurve") /\
    type_named (get (last t f) "type") OffCurve.

(** A contour whose first point is of type `qcurve`. *)
Definition starts_quadratic (ce : element) : Prop :=
  exists f t, named "point" ce = f :: t /\ get f "type" = Some (lit "qcurve").

(** Lines, each a single point, and curves, each two control points and an end point. *)
Inductive pieces : list ptype -> Prop :=
| no_piece : pieces []
| a_line ts : pieces ts -> pieces (Line :: ts)
| a_curve ts : pieces ts -> pieces (OffCurve :: OffCurve :: Curve :: ts).
(** A contour written out in full: a `move` and pieces, or pieces around the first point, or
    without points. *)
Definition complete_contour (ce : element) : Prop :=
  exists ts, Forall2 (fun e t => type_named (get e "type") t) (named "point" ce) ts /\
    (ts = [] \/ (exists r, ts = Move :: r /\ pieces r) \/ exists t r, ts = t :: r /\ t <> Move /\ pieces (r ++ [t])).
(** Nothing about the contour is changed; if it starts with a curve, it starts one point earlier. *)
Definition kept_whole {PD} (c c' : list (point PD)) : Prop :=
  exists p t, c = p :: t /\ (pptype p <> Curve -> c' = c) /\ (pptype p = Curve -> one_earlier c c').

(** The numbers a glyph is written with, as far as they are written as coordinates. *)
Definition numbers_of_color (o : option color) : list iof :=
  match o with Some c => [cr c; cg c; cb c; ca c] | None => [] end.
Definition numbers {PD PL} (g : glif PD PL) : list iof :=
  flat_map (fun a => [IFloat (an_x a); IFloat (an_y a)]) (g_anchors g) ++
  flat_map (fun l => gl_angle l :: numbers_of_color (gl_color l)) (g_guidelines g) ++
  flat_map (fun c => members (c_matrix c)) (cs_vec (g_components g)) ++
  flat_map (fun i => members (i_matrix i)) (g_images g) ++
  map IFloat (flat_map coordinates (concat (contours g))).
(** A minus sign on a zero is the one thing about a number that is lost. *)
Definition no_minus_zero {PD PL} (g : glif PD PL) : Prop := ~ In (IFloat (S754_zero true)) (numbers g).
