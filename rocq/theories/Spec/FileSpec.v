(** Glyphs opened from the bytes of any file, for C116. *)
Require Import Coq.Lists.List Coq.NArith.NArith.
Require Import Verif.Model.Base Verif.Model.Point Verif.Model.Names Verif.Model.Color Verif.Model.Xml Verif.Model.Parts Verif.Model.Plist
  Verif.Spec.GlyphSpec Verif.Spec.XmlTextSpec Verif.Spec.PlistSpec Verif.Spec.GrammarSpec Verif.Spec.BytesSpec.
Import ListNotations.
Local Open Scope N_scope.

Section File.
Context {X : Type} (S : scalars X) {PD : Type}.
Notation plist := (list (str * pvalue X)).

(** The texts of a glyph that its file holds as attributes. *)
Definition given (o : option str) : list str := match o with Some s => [s] | None => [] end.
Definition attribute_texts (g : glif PD plist) : list str :=
  g_name g ::
  flat_map (fun a => given (an_class a)) (g_anchors g) ++
  flat_map (fun l => given (gl_name l) ++ given (gl_identifier l)) (g_guidelines g) ++
  flat_map (fun c => c_base c :: given (c_identifier c)) (cs_vec (g_components g)) ++
  flat_map (fun i => os_text (i_filename i) :: given (i_identifier i)) (g_images g) ++
  flat_map (fun p => given (pname p)) (concat (contours g)).
(** The texts of its property list, keys included. *)
Definition lib_texts (g : glif PD plist) (s : str) : Prop :=
  exists d, g_lib g = LPlist d /\ (text_in (PDict d) s \/ key_in (PDict d) s).

(** Texts all parsers give alike: no tabs in attributes, no carriage returns elsewhere; in the lib
    also none that is taken for layout, being nothing but blanks. *)
Definition lasting_texts (g : glif PD plist) : Prop :=
  (forall s, In s (attribute_texts g) -> ~ In 9 s) /\
  (forall s, g_note g = Some s -> ~ In 13 s) /\
  (forall s, lib_texts g s -> ~ In 13 s /\ (s = [] \/ ~ all_blank s)).

(** Reals, dates and data that are written so that they are read back. *)
Definition faithful_scalars : Prop := forall n s x, scalar_read S n s = Some x -> scalar_ok S x.

(** The bytes are those of a document that says the tree. *)
Definition file_says (b : list N) (root : element) : Prop := exists t, utf8 t b /\ document t root.
End File.
