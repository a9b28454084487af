(** Property C107: however a file is spelt, the same glyph is read. *)
Require Import Coq.Strings.String Coq.Lists.List Coq.Arith.Arith Coq.NArith.NArith Coq.Bool.Bool.
Require Import Verif.Model.Base Verif.Model.Text Verif.Model.Float Verif.Model.Num Verif.Model.RustNum Verif.Model.Pedantry Verif.Model.Xml Verif.Model.XmlText
  Verif.Model.Parts Verif.Model.Read Verif.Model.Write Verif.Model.Interop
  Verif.Spec.GlyphSpec Verif.Spec.XmlTextSpec Verif.Spec.GrammarSpec
  Verif.Facts.XmlFacts Verif.Facts.XmlTextFacts Verif.Facts.GrammarFacts Verif.Props.PropsGlyph.
Import ListNotations.
Local Open Scope nat_scope.

(** Exactly the documents are read, each as the tree it says. *)
Theorem C107_documents : forall t e, parse_xml t = Some e <-> document t e.
Proof. exact parse_document. Qed.

(** A text says one tree at most. *)
Theorem C107_one_meaning : forall t e e', document t e -> document t e' -> e = e'.
Proof. intros t e e' H H'. apply parse_document in H, H'. rewrite H in H'. now injection H'. Qed.

(** What is written for a tree is a document that says it, but for text of nothing but blanks. *)
Theorem C107_written : forall e, carried e -> exists t e', print_xml e = Some t /\ document t e' /\ unblanked e e'.
Proof. intros e H. destruct (parse_print e H) as (t & H1 & H2). exists t, (unblank e). split; [exact H1|]. split; [now apply parse_document|apply unblank_unblanked]. Qed.

Section C107.
Context (L : numlib) {PD PL : Type} (pd0 : PD) (P : plistlib PL).

(** The glyph read depends on the tree the text says and on nothing else of the text. *)
Theorem C107_same_glyph : forall t t' e e', document t e -> document t' e' -> glyph_alike e e' ->
  (read_text L pd0 P parse_xml t : res (glif PD PL)) = read_text L pd0 P parse_xml t'.
Proof.
  intros t t' e e' H H' Ha. apply parse_document in H, H'. unfold read_text. rewrite H, H'. cbn [ok_or bind]. now apply read_alike.
Qed.
(** What is no document is not read. *)
Theorem C107_no_document : forall t, (forall e, ~ document t e) -> (read_text L pd0 P parse_xml t : res (glif PD PL)) = Err EXmlParse.
Proof.
  intros t H. unfold read_text. destruct (parse_xml t) as [e|] eqn:E; [|reflexivity]. apply parse_document in E. now apply H in E.
Qed.
End C107.
Print Assumptions C107_documents.
Print Assumptions C107_one_meaning.
Print Assumptions C107_written.
Print Assumptions C107_same_glyph.
Print Assumptions C107_no_document.

(** The same glyph in two spellings: quotes, references, layout, comments, a document type. *)
Definition plain_spelling : str := lit "<?xml version=""1.0"" encoding=""UTF-8""?>
<glyph name=""A&lt;B"" format=""2"">
  <advance width=""600""/>
  <unicode hex=""41""/>
  <note>x &amp; y</note>
</glyph>".
Definition odd_spelling : str := lit "<!DOCTYPE glyph> <!-- by hand -->
<glyph  name = 'A&#60;B' format='2' ><!-- <advance width=""1""/> --><advance
  width=""&#x36;00"" ></advance ><unicode hex='41' /><note>&#120; &#38; y</note></glyph>
<!-- end -->".
Example C107_case : exists e e' g, document plain_spelling e /\ document odd_spelling e' /\ e <> e' /\ glyph_alike e e' /\
  read_text rust_num tt no_plist parse_xml odd_spelling = Ok g /\ g_name g = lit "A<B" /\ g_note g = Some (lit "x & y") /\ g_width g = Some 600%N.
Proof.
  destruct (parse_xml plain_spelling) as [e|] eqn:E; [|vm_compute in E; discriminate].
  destruct (parse_xml odd_spelling) as [e'|] eqn:E'; [|vm_compute in E'; discriminate].
  eexists e, e', _. split; [now apply parse_document|]. split; [now apply parse_document|].
  vm_compute in E, E'. assert (forall x y : element, Some x = Some y -> y = x) as S by (intros x y H; now injection H). apply S in E, E'. subst e e'.
  split; [intros H; apply (f_equal (fun e => List.length (echildren e))) in H; discriminate|].
  split.
  { unfold glyph_alike, each_alike. split; [reflexivity|]. split; [intros k; reflexivity|].
    do 7 (split; [vm_compute; repeat constructor|]). vm_compute. repeat constructor. }
  split; [vm_compute; reflexivity|]. now repeat split.
Qed.
(** An end tag of another name, an attribute twice, a bare ampersand, two elements: no documents. *)
Example C107_bad_case : Forall (fun t => forall e, ~ document t e)
  [lit "<a></b>"; lit "<a x=""1"" x=""2""/>"; lit "<a>x & y</a>"; lit "<a/><b/>"; lit "<a>"; lit "text"; lit "<a b=c/>"].
Proof.
  assert (forall t, parse_xml t = None -> forall e, ~ document t e) as A by (intros t H e D; apply parse_document in D; congruence).
  repeat (constructor; [apply A; vm_compute; reflexivity|]). constructor.
Qed.
