(** Saving what was loaded from a saved file: which files come out the same. *)
Require Import Coq.Strings.String Coq.Lists.List Coq.NArith.NArith Coq.ZArith.ZArith Coq.Floats.SpecFloat.
Require Import Verif.Model.Base Verif.Model.Text Verif.Model.Float Verif.Model.Num Verif.Model.Point Verif.Model.Names Verif.Model.Pedantry Verif.Model.Color
  Verif.Model.Xml Verif.Model.Parts Verif.Model.Read Verif.Model.Write Verif.Spec.OutlineSpec Verif.Spec.GlyphSpec Verif.Spec.OpenSpec.
Import ListNotations.

(** What a point of a curve looks like: where it and its handles are, its name, type and smoothness. *)
Definition looks {PD} (p : point PD) := (shown p, spot p (pa p), spot p (pb p)).
(** A contour that starts and ends with the ends of curves, with points that differ. *)
Definition wandering {PD} (c : list (point PD)) : Prop :=
  exists p m q, c = p :: m ++ [q] /\ pptype p = Curve /\ pptype q = Curve /\
    exists x y, In x c /\ In y c /\ looks x <> looks y.

(** A contour some point of which is not the end of a curve: it has a line, or is open. *)
Definition partly_straight {PD} (c : list (point PD)) : Prop := exists p, In p c /\ pptype p <> Curve.

(** The numbers of a glyph that are written as they are, whole or not. *)
Definition free_numbers {PD PL} (g : glif PD PL) : list iof :=
  flat_map (fun l => gl_angle l :: numbers_of_color (gl_color l)) (g_guidelines g) ++
  flat_map (fun c => members (c_matrix c)) (cs_vec (g_components g)) ++
  flat_map (fun i => members (i_matrix i)) (g_images g).
(** The number read from the text of [i] is written with that text again. *)
Definition settled (L : numlib) (i : iof) : Prop := forall j, iof_read L (iof_show L i) = Some j -> iof_show L j = iof_show L i.

(** The document [e] is opened and saved as [e']; and [k] times over. *)
Definition saved_again {PD PL} (L : numlib) (pd0 : PD) (P : plistlib PL) (dbg : bool) (e e' : element) : Prop :=
  exists g : glif PD PL, read_element L pd0 P pedantry_default e = Ok g /\ glif_xml L P dbg g = Ok e'.
Inductive saved_times {PD PL} (L : numlib) (pd0 : PD) (P : plistlib PL) (dbg : bool) : nat -> element -> element -> Prop :=
| saved_never e : saved_times L pd0 P dbg 0 e e
| saved_once_more k e e1 e2 : saved_again L pd0 P dbg e e1 -> saved_times L pd0 P dbg k e1 e2 -> saved_times L pd0 P dbg (S k) e e2.
