(** Opening and saving again and again. *)
Require Import Coq.Strings.String Coq.Lists.List Coq.NArith.NArith.
Require Import Verif.Model.Base Verif.Model.Text Verif.Model.Num Verif.Model.RustNum Verif.Model.Point Verif.Model.Names Verif.Model.Pedantry Verif.Model.Xml
  Verif.Model.XmlText Verif.Model.Plist Verif.Model.Utf8 Verif.Model.Interop Verif.Model.Parts Verif.Model.Read Verif.Model.Write Verif.Spec.GlyphSpec Verif.Spec.OpenSpec.
Import ListNotations.
Local Open Scope string_scope.

(** A contour that starts with a `qcurve` point and does not end with one. *)
Definition one_sided (ce : element) : Prop :=
  exists f t, named "point" ce = f :: t /\ get f "type" = Some (lit "qcurve") /\ get (last t f) "type" <> Some (lit "qcurve").

(** The document can be opened, the glyph saved, what was saved opened, and so on, [n] times. *)
Fixpoint survives {PD PL} (pd0 : PD) (P : plistlib PL) (dbg : bool) (n : nat) (root : element) : Prop :=
  match n with
  | O => True
  | S m => exists (g : glif PD PL) (e : element),
      read_element rust_num pd0 P pedantry_default root = Ok g /\ glif_xml rust_num P dbg g = Ok e /\ survives pd0 P dbg m e
  end.

(** The same for the bytes of a file under a name. *)
Fixpoint lives {X PD} (Sc : scalars X) (pd0 : PD) (dbg : bool) (fn : path) (n : nat) (b : list N) : Prop :=
  match n with
  | O => True
  | S m => exists (g : glif PD (list (str * pvalue X))) (b' : list N),
      read_from_filename rust_num pd0 (xml_plist Sc) str (texts_of (fun _ => Some b)) parse_xml pedantry_default fn = Ok g /\
      write_text rust_num (xml_plist Sc) dbg print_bytes g = Ok b' /\ lives Sc pd0 dbg fn m b'
  end.
