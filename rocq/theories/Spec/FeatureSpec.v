(** Builds without images or without serde. *)
Require Import Coq.Strings.String Coq.Lists.List Coq.NArith.NArith Coq.Bool.Bool.
Require Import Verif.Model.Base Verif.Model.Text Verif.Model.Point Verif.Model.Xml Verif.Model.Parts Verif.Model.Features.
Import ListNotations.

(** The kinds of children a build knows nothing about. *)
Definition unknown (F : features) (name : str) : bool :=
  (negb (f_image F) && str_eqb name (lit "image")) || (negb (f_serde F) && str_eqb name (lit "lib")).
(** The document without them. *)
Definition cut (F : features) (root : element) : element :=
  Element (ename root) (eattrs root)
    (filter (fun n => match n with NElem e => negb (unknown F (ename e)) | _ => true end) (echildren root)).

(** The glyph without what the build does not read. *)
Definition reduced {PD PL} (F : features) (g : glif PD PL) : glif PD PL :=
  mkGlif (g_outline g) (g_anchors g) (g_components g) (g_guidelines g) (if f_image F then g_images g else []) (g_width g) (g_unicode g)
    (g_name g) (g_note g) (g_filename g) (if f_serde F then g_lib g else LNone).
