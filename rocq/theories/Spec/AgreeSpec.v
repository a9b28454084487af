(** What a kurbo path draws, beside what pen operations and a Skia path draw. *)
Require Import Coq.Lists.List.
Require Import Verif.Model.Base Verif.Model.Float Verif.Model.Num Verif.Model.Point Verif.Model.Penops Verif.Model.Kurbo Verif.Model.Skia
  Verif.Spec.ContourSpec Verif.Spec.PathSpec Verif.Spec.SkiaSpec.
Import ListNotations.

(** What kurbo draws: as strokes, in 64 bits. *)
Inductive kstroke :=
| KLine (p q : f64 * f64)
| KQuad (p a q : f64 * f64)
| KCubic (p a b q : f64 * f64).
(** [kurbo_draws st path l]: with the pen at the second place of [st] in a subpath begun at the first, the path
    draws l.  Nothing can be drawn before a MoveTo; closing draws the line back to the start, or nothing if the
    pen is there. *)
Inductive kurbo_draws : option ((f64 * f64) * (f64 * f64)) -> list pathel -> list kstroke -> Prop :=
| kdraws_end st : kurbo_draws st [] []
| kdraws_move st p path l : kurbo_draws (Some (p, p)) path l -> kurbo_draws st (KMoveTo p :: path) l
| kdraws_line s c p path l : kurbo_draws (Some (s, p)) path l -> kurbo_draws (Some (s, c)) (KLineTo p :: path) (KLine c p :: l)
| kdraws_quad s c a p path l : kurbo_draws (Some (s, p)) path l -> kurbo_draws (Some (s, c)) (KQuadTo a p :: path) (KQuad c a p :: l)
| kdraws_curve s c a b p path l : kurbo_draws (Some (s, p)) path l -> kurbo_draws (Some (s, c)) (KCurveTo a b p :: path) (KCubic c a b p :: l)
| kdraws_close s c path l : kurbo_draws (Some (s, s)) path l -> kurbo_draws (Some (s, c)) (KClosePath :: path) (KLine c s :: l)
| kdraws_close_there s path l : kurbo_draws (Some (s, s)) path l -> kurbo_draws (Some (s, s)) (KClosePath :: path) l.

(** A stroke in 64 bits, and as a pen draws it. *)
Definition widened (s : stroke) : kstroke :=
  match s with
  | SLine p q => KLine (wide p) (wide q)
  | SQuad p a q => KQuad (wide p) (wide a) (wide q)
  | SCubic p a b q => KCubic (wide p) (wide a) (wide b) (wide q)
  end.
Definition penned (L : numlib) (s : stroke) : drawn :=
  match s with
  | SLine p q => DLine (num_at L p) (num_at L q)
  | SQuad p a q => DQuad (num_at L p) (num_at L a) (num_at L q)
  | SCubic p a b q => DCurve (num_at L p) (num_at L a) (num_at L b) (num_at L q)
  end.
(** Contours that the pen operations draw: closed ones, all lines or all curves, and single open curves. *)
Definition pen_can {PD} (c : list (point PD)) : Prop :=
  (closed c /\ one_kind (closed_segments c)) \/ exists p q, c = [p; q] /\ pptype p = Move /\ pptype q = Curve.
(** Every number of the contour is an f32. *)
Definition valid_place (p : f32 * f32) : Prop := valid32 (fst p) = true /\ valid32 (snd p) = true.
Definition valid_numbers {PD} (c : list (point PD)) : Prop :=
  forall p, In p c -> valid_place (px p, py p) /\ valid_place (handle_at (px p, py p) (pa p)) /\ valid_place (handle_at (px p, py p) (pb p)).
(** No two neighbouring points of the contour are in the same place. *)
Definition spread_out (L : numlib) {PD} (c : list (point PD)) : Prop :=
  spread L c /\ (closed c -> forall p t, c = p :: t -> spread L (c ++ [p])).
