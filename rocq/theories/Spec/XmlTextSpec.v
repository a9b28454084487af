(** What XML can carry, for C106. *)
Require Import Coq.Lists.List Coq.NArith.NArith Coq.Strings.String.
Require Import Verif.Model.Base Verif.Model.Text Verif.Model.Num Verif.Model.Point Verif.Model.Color Verif.Model.Xml Verif.Model.Parts Verif.Spec.GlyphSpec.
Import ListNotations.
Local Open Scope N_scope.

(** The characters of XML 1.0 (production 2), white space (production 3). *)
Definition document_char (c : N) : Prop :=
  c = 9 \/ c = 10 \/ c = 13 \/ 32 <= c <= 55295 \/ 57344 <= c <= 65533 \/ 65536 <= c <= 1114111.
Definition blank (c : N) : Prop := c = 32 \/ c = 9 \/ c = 10 \/ c = 13.
(** Attributes: no tabs, for which some parsers give blanks. *)
Definition attribute_text (s : str) : Prop := Forall (fun c => document_char c /\ c <> 9) s.
(** Text: no carriage returns, for which some parsers give ends of lines. *)
Definition plain_text (s : str) : Prop := Forall (fun c => document_char c /\ c <> 13) s.

(** Names without prefix. *)
Definition letter (c : N) : Prop := 65 <= c <= 90 \/ 97 <= c <= 122 \/ c = 95 \/ (128 <= c /\ document_char c).
Definition plain_xml_name (s : str) : Prop :=
  exists c t, s = c :: t /\ letter c /\ Forall (fun d => letter d \/ 48 <= d <= 57 \/ d = 45 \/ d = 46) t.

(** Trees that XML text can carry, but for text of nothing but blanks; two texts in a row would
    become one. *)
Definition carried_nodes (sub : element -> Prop) : list node -> Prop :=
  fix all (l : list node) : Prop :=
    match l with
    | [] => True
    | NElem e :: t => sub e /\ all t
    | NText s :: t => plain_text s /\ all t
    | NCData s :: t => (plain_text s /\ forall a b, s <> a ++ lit "]]>" ++ b) /\ all t
    | NOther :: t => all t
    end.
Definition separate (ch : list node) : Prop := forall l s s' r, ch <> l ++ NText s :: NText s' :: r.
Fixpoint carried (e : element) : Prop :=
  let 'Element n a ch := e in
  plain_xml_name n /\
  Forall (fun kv => plain_xml_name (fst kv) /\ fst kv <> lit "xmlns" /\ attribute_text (snd kv)) a /\ NoDup (map fst a) /\
  separate ch /\ carried_nodes carried ch.

(** The tree [e'] is [e] without the texts of nothing but blanks. *)
Inductive unblanked : element -> element -> Prop :=
| Unblanked n a ch ch' : unblanked_nodes ch ch' -> unblanked (Element n a ch) (Element n a ch')
with unblanked_nodes : list node -> list node -> Prop :=
| UNil : unblanked_nodes [] []
| UElem e e' t t' : unblanked e e' -> unblanked_nodes t t' -> unblanked_nodes (NElem e :: t) (NElem e' :: t')
| UText s t t' : (exists c, In c s /\ ~ blank c) -> unblanked_nodes t t' -> unblanked_nodes (NText s :: t) (NText s :: t')
| UBlank s t t' : (forall c, In c s -> blank c) -> unblanked_nodes t t' -> unblanked_nodes (NText s :: t) t'
| UCData s t t' : unblanked_nodes t t' -> unblanked_nodes (NCData s :: t) (NCData s :: t')
| UOther t t' : unblanked_nodes t t' -> unblanked_nodes (NOther :: t) (NOther :: t').

(** Glyphs whose texts XML can carry. *)
Section Glyphs.
Context {PD PL : Type} (P : plistlib PL).
Definition opt_text (o : option str) : Prop := forall s, o = Some s -> attribute_text s.
(** The tree written for the lib: the children of an element under the name lib; none of its texts
    is blank. *)
Definition carried_lib (l : lib PL) : Prop :=
  forall e, (l = LXml e \/ exists d, l = LPlist d /\ element_of_plist P d = Some e) ->
    carried (Element (lit "lib") [] (echildren e)) /\ unblanked_nodes (echildren e) (echildren e).
Definition carried_glyph (g : glif PD PL) : Prop :=
  attribute_text (g_name g) /\
  Forall (fun a => opt_text (an_class a)) (g_anchors g) /\
  Forall (fun x => opt_text (gl_name x) /\ opt_text (gl_identifier x)) (g_guidelines g) /\
  Forall (fun c => attribute_text (c_base c) /\ opt_text (c_identifier c)) (cs_vec (g_components g)) /\
  Forall (fun i => attribute_text (os_text (i_filename i)) /\ opt_text (i_identifier i)) (g_images g) /\
  Forall (Forall (fun p => opt_text (pname p))) (contours g) /\
  (forall s, g_note g = Some s -> plain_text s) /\
  carried_lib (g_lib g).
(** Numbers are written in characters XML can carry. *)
Definition carried_numbers (L : numlib) : Prop :=
  (forall i, attribute_text (iof_show L i)) /\ (forall f, attribute_text (f32_show L f)).
(** A note of nothing but blanks. *)
Definition blank_note (g : glif PD PL) : Prop := exists s, g_note g = Some s /\ forall c, In c s -> blank c.
(** The glyph without its note. *)
Definition noteless (g : glif PD PL) : glif PD PL :=
  mkGlif (g_outline g) (g_anchors g) (g_components g) (g_guidelines g) (g_images g) (g_width g) (g_unicode g) (g_name g) None (g_filename g) (g_lib g).
End Glyphs.
