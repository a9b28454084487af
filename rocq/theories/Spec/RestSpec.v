(** Glyphs without their contours, and their contours alone. *)
Require Import Coq.Lists.List.
Require Import Verif.Model.Base Verif.Model.Parts.
Import ListNotations.

Section Rest.
Context {PD PL : Type}.
Definition without_contours (g : glif PD PL) : glif PD PL :=
  mkGlif None (g_anchors g) (g_components g) (g_guidelines g) (g_images g) (g_width g) (g_unicode g) (g_name g) (g_note g) (g_filename g) (g_lib g).
(** A glyph of that name with the same contours and nothing else. *)
Definition only_contours (g : glif PD PL) : glif PD PL :=
  mkGlif (g_outline g) [] (mkComponents (g_name g) [] []) [] [] None [] (g_name g) None None LNone.
End Rest.
