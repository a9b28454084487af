(** A component loaded by itself. *)
Require Import Coq.Lists.List.
Require Import Verif.Model.Base Verif.Model.Text Verif.Model.Float Verif.Model.Num Verif.Model.Names Verif.Model.Parts Verif.Model.Component.
Import ListNotations.

(** [k] is what [h], the glyph in the file [fn], is as the component [r]: its outline, its anchors and its own
    components under the name and with the matrix given in [r]; nothing else of it. *)
Definition loaded_as {PD PL} (r : glifcomponent) (fn : path) (h : glif PD PL) (k : component PD PL) : Prop :=
  let g := cp_glif k in let m := c_matrix r in
  g_outline g = g_outline h /\ g_anchors g = g_anchors h /\ g_components g = g_components h /\
  g_name g = c_base r /\ g_filename g = Some fn /\
  g_guidelines g = [] /\ g_images g = [] /\ g_width g = None /\ g_unicode g = [] /\ g_note g = None /\ g_lib g = LNone /\
  cp_matrix k = mkAffine (f64_of_iof (m_xScale m)) (f64_of_iof (m_xyScale m)) (f64_of_iof (m_yxScale m))
                         (f64_of_iof (m_yScale m)) (f64_of_iof (m_xOffset m)) (f64_of_iof (m_yOffset m)).
