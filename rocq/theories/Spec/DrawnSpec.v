(** What a contour draws, as its handles say, before and after saving. *)
Require Import Coq.Lists.List.
Require Import Verif.Model.Base Verif.Model.Float Verif.Model.Num Verif.Model.Point Verif.Model.Parts Verif.Spec.ContourSpec.
Import ListNotations.

(** Where a handle of a point is: on the point if there is none. *)
Definition place (at_point : f32 * f32) (h : handle) : f32 * f32 :=
  match h with At x y => (x, y) | Colocated => at_point end.

(** The four points of the cubic curve a segment is; a line is one whose inner points are its ends. *)
Definition drawn (s : segment) : (f32 * f32) * (f32 * f32) * (f32 * f32) * (f32 * f32) :=
  (sg_from s, place (sg_from s) (sg_out s), place (sg_to s) (sg_in s), sg_to s).
Definition straight (s : segment) : Prop := drawn s = (sg_from s, sg_from s, sg_to s, sg_to s).

(** The segments of a contour, open or closed. *)
Definition segments {PD} (c : list (point PD)) : list segment :=
  match c with
  | p :: _ :: _ => if ptype_eqb (pptype p) Move then open_segments c else closed_segments c
  | _ => closed_segments c
  end.
Definition drawing {PD} (c : list (point PD)) := map drawn (segments c).
(** The same, the other way round. *)
Definition drawing_backwards {PD} (c : list (point PD)) := rev (map (fun s => drawn (flip s)) (segments c)).

(** Two drawings of the contour [c] are the same: for an open contour the same curves in the same order,
    for a closed one starting anywhere. *)
Definition same_drawing {PD A} (c : list (point PD)) (l l' : list A) : Prop :=
  (opened c -> l' = l) /\ (~ opened c -> exists a b, l = a ++ b /\ l' = b ++ a).

(** Segment [s'] comes after segment [s]; in a closed contour the first comes after the last. *)
Definition comes_after {PD} (c : list (point PD)) (s s' : segment) : Prop :=
  let l := segments c in
  exists i, nth_error l i = Some s /\ nth_error l (next_of (length l) i) = Some s' /\ (opened c -> S i < length l).

(** A segment that is not straight comes after a line. *)
Definition curve_after_line {PD} (c : list (point PD)) : Prop :=
  exists s s', comes_after c s s' /\ sg_kind s = Line /\ ~ straight s'.

(** No handle lies on its own point. *)
Definition handles_away {PD} (c : list (point PD)) : Prop :=
  forall p, In p c -> ~ on_point p (pa p) /\ ~ on_point p (pb p).

(** [g] with another outline. *)
Definition with_outline {PD PL} (g : glif PD PL) (o : list (list (point PD))) : glif PD PL :=
  mkGlif (Some o) (g_anchors g) (g_components g) (g_guidelines g) (g_images g) (g_width g) (g_unicode g) (g_name g)
         (g_note g) (g_filename g) (g_lib g).
