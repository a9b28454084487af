(** Property C106: the characters of the file. *)
Require Import Coq.Strings.String Coq.Lists.List Coq.Arith.Arith Coq.NArith.NArith Coq.ZArith.ZArith Coq.Bool.Bool Coq.Floats.SpecFloat Coq.micromega.Lia.
Require Import Verif.Model.Base Verif.Model.Text Verif.Model.Float Verif.Model.Num Verif.Model.RustNum Verif.Model.Point
  Verif.Model.Names Verif.Model.Pedantry Verif.Model.Color Verif.Model.Xml Verif.Model.XmlText Verif.Model.Parts Verif.Model.Read Verif.Model.Write Verif.Model.Component Verif.Model.Interop
  Verif.Spec.NumSpec Verif.Spec.OutlineSpec Verif.Spec.GlyphSpec Verif.Spec.InteropSpec Verif.Spec.FontSpec Verif.Spec.XmlTextSpec
  Verif.Facts.NamesFacts Verif.Facts.GlyphFacts Verif.Facts.XmlTextFacts Verif.Facts.XmlGlyphFacts
  Verif.Props.PropsGlyph Verif.Props.PropsInterop Verif.Props.PropsFont.
Import ListNotations.
Local Open Scope nat_scope.

(** Any tree XML can carry, printed and parsed, is there again, but for text of nothing but blanks. *)
Theorem C106_tree : forall e, carried e -> exists t e', print_xml e = Some t /\ parse_xml t = Some e' /\ unblanked e e'.
Proof. intros e H. destruct (parse_print e H) as (t & H1 & H2). exists t, (unblank e). split; [exact H1|]. split; [exact H2|apply unblank_unblanked]. Qed.

(** The numbers of the standard library are written in characters XML can carry. *)
Theorem C106_numbers : carried_numbers rust_num.
Proof. exact rust_carried. Qed.

Section C106.
Context (L : numlib) {PD PL : Type} (pd0 : PD) (P : plistlib PL) (dbg : bool).
Context (HL : forall f, f32_of_iof (iof_of_f32 L f) = f) (HN : carried_numbers L).

(** A glyph whose texts XML can carry is restored from the characters written for it. *)
Theorem C106_text_restored : forall g : glif PD PL, glyph_ok L P g -> carried_glyph P g -> ~ blank_note g ->
  exists t g', write_text L P dbg print_xml g = Ok t /\ read_text L pd0 P parse_xml t = Ok g' /\ glyph_restored g g'.
Proof.
  intros g Hok Hc Hb. destruct (C24_glyph_restored L PD PL pd0 P dbg g HL Hok) as (e & g' & H1 & H2 & H3).
  destruct (glif_carried L pd0 P dbg HN g e H1 Hc) as (He & Hu & _). destruct (parse_print e He) as (t & Ht & Hp). rewrite (Hu Hb) in Hp.
  exists t, g'. unfold write_text, read_text. rewrite H1. cbn [bind]. rewrite Ht, Hp. cbn [ok_or bind]. auto.
Qed.

(** A note of nothing but blanks is lost, and nothing else is. *)
Theorem C106_blank_note : forall g : glif PD PL, glyph_ok L P g -> carried_glyph P g -> blank_note g ->
  exists t g', write_text L P dbg print_xml g = Ok t /\ read_text L pd0 P parse_xml t = Ok g' /\ glyph_restored (noteless g) g'.
Proof.
  intros g Hok Hc Hb. assert (glyph_ok L P (noteless g)) as Hok' by exact Hok.
  destruct (C24_glyph_restored L PD PL pd0 P dbg g HL Hok) as (e & _ & H1 & _ & _).
  destruct (C24_glyph_restored L PD PL pd0 P dbg (noteless g) HL Hok') as (e0 & g' & H4 & H5 & H6).
  destruct (glif_carried L pd0 P dbg HN g e H1 Hc) as (He & _ & Hu). destruct (Hu Hb) as (e1 & E1 & E2). rewrite H4 in E1. injection E1 as <-.
  destruct (parse_print e He) as (t & Ht & Hp). exists t, g'. unfold write_text, read_text. rewrite H1. cbn [bind]. rewrite Ht, Hp. cbn [ok_or bind].
  rewrite E2, H5. auto.
Qed.

(** A name with a character that XML does not have: the glyph is written, and what is written is no
    XML any more. *)
Theorem C106_name_refuted : forall (g : glif PD PL) t, (exists c, In c (g_name g) /\ ~ document_char c) ->
  write_text L P dbg print_xml g = Ok t -> read_text L pd0 P parse_xml t = Err EXmlParse.
Proof.
  intros g t (c & Hc & Hd) H. unfold write_text in H. destruct (glif_xml L P dbg g) as [e| |] eqn:E; try discriminate. cbn [bind] in H.
  assert (exists ch, e = Element (lit "glyph") [(lit "name", g_name g); (lit "format", lit "2")] ch) as (ch & ->).
  { unfold glif_xml in E. destruct (outline_children L dbg (g_outline g)); try discriminate. cbn [bind] in E. injection E as <-. eexists. reflexivity. }
  assert (In c t) as Ht.
  { unfold print_xml in H. cbn [ok_or] in H. assert (forall x y : str, Ok x = Ok y -> x = y) as OK by (intros x y E'; now injection E'). apply OK in H. rewrite <- H.
    rewrite !in_app_iff. right. right. rewrite emit_eq. right. rewrite in_app_iff. right. rewrite in_app_iff. left. cbn [flat_map]. rewrite in_app_iff. left.
    unfold emit_attr. right. cbn [fst snd]. rewrite in_app_iff. right. right. right. rewrite in_app_iff. left. apply in_flat_map. exists c. split; [exact Hc|].
    assert (forall k, document_char k -> N.eqb c k = false) as X by (intros k Hk; apply N.eqb_neq; now intros ->).
    unfold esc_attr. rewrite !X by (unfold document_char; lia). now left. }
  unfold read_text, parse_xml. assert (forallb xml_char t = false) as ->; [|reflexivity].
  apply not_true_iff_false. intros A. rewrite forallb_forall in A. now apply Hd, xml_char_iff, A.
Qed.

(** A font saved as XML text is loaded from it. *)
Theorem C106_font : forall steps interrupted (dir : path) (gs : list (glif PD PL)) files files',
  font gs -> Forall (glyph_ok L P) gs -> (forall g, In g gs -> carried_glyph P g /\ ~ blank_note g) ->
  history L P dbg print_xml steps interrupted files (map (fun g => Saved (home dir (g_name g)) g) gs) files' ->
  forall g, In g gs -> exists g', read_from_filename L pd0 P str files' parse_xml pedantry_default (home dir (g_name g)) = Ok g' /\ glyph_restored g g'.
Proof.
  intros steps interrupted dir gs files files' Hf Hok Hc H g Hg.
  destruct (C99_font_restored L pd0 P dbg parse_xml print_xml steps interrupted dir gs files files' HL Hf Hok) with (g := g) as (g' & H1 & H2 & _); [|exact H|exact Hg|eauto].
  intros h e t Hh He Ht. destruct (Hc h Hh) as [C1 C2]. destruct (glif_carried L pd0 P dbg HN h e He C1) as (Hce & Hu & _).
  destruct (parse_print e Hce) as (t' & Ht' & Hp). rewrite Ht in Ht'. injection Ht' as <-. rewrite (Hu C2) in Hp. exists e. split; [exact Hp|].
  apply (alike_same_children); reflexivity.
Qed.
End C106.
Print Assumptions C106_tree.
Print Assumptions C106_numbers.
Print Assumptions C106_text_restored.
Print Assumptions C106_blank_note.
Print Assumptions C106_name_refuted.
Print Assumptions C106_font.

(** ** Cases *)
Lemma decided_attribute s : forallb (fun c => andb (xml_char c) (negb (N.eqb c 9))) s = true -> attribute_text s.
Proof.
  intros H. apply Forall_forall. intros c Hc. rewrite forallb_forall in H. specialize (H c Hc). apply andb_true_iff in H as [H1 H2]. split; [now apply xml_char_iff|].
  apply negb_true_iff, N.eqb_neq in H2. exact H2.
Qed.
Lemma decided_text s : forallb (fun c => andb (xml_char c) (negb (N.eqb c 13))) s = true -> plain_text s.
Proof.
  intros H. apply Forall_forall. intros c Hc. rewrite forallb_forall in H. specialize (H c Hc). apply andb_true_iff in H as [H1 H2]. split; [now apply xml_char_iff|].
  apply negb_true_iff, N.eqb_neq in H2. exact H2.
Qed.
(** The glyph with one of everything, with names and a note full of what XML sets apart. *)
Definition quoted : str := (lit "a<b & 'c' > ""d""" ++ [10; 233; 128512]%N)%list.
Definition ex_quoted (note : str) : glif unit unit :=
  mkGlif (g_outline ex_glyph) (g_anchors ex_glyph) (g_components ex_glyph) (g_guidelines ex_glyph) (g_images ex_glyph) (g_width ex_glyph) (g_unicode ex_glyph)
    quoted (Some note) None (g_lib ex_glyph).
Lemma ex_quoted_carried note : plain_text note -> carried_glyph no_plist (ex_quoted note).
Proof.
  intros Hn.
  assert (opt_text None) as O by (intros s H; discriminate).
  assert (forall s, forallb (fun c => andb (xml_char c) (negb (N.eqb c 9))) s = true -> opt_text (Some s)) as S by (intros s H t [= <-]; now apply decided_attribute).
  unfold carried_glyph, ex_quoted. cbn [g_name g_anchors g_guidelines g_components g_images g_note g_lib ex_glyph cs_vec].
  split; [apply decided_attribute; vm_compute; reflexivity|].
  split; [apply Forall_cons; [apply S; vm_compute; reflexivity|apply Forall_nil]|].
  split; [apply Forall_cons; [split; [apply S; vm_compute; reflexivity|exact O]|apply Forall_nil]|].
  split; [apply Forall_cons; [split; [apply decided_attribute; vm_compute; reflexivity|apply S; vm_compute; reflexivity]|apply Forall_nil]|].
  split; [apply Forall_cons; [split; [apply decided_attribute; vm_compute; reflexivity|exact O]|apply Forall_nil]|].
  split; [apply Forall_cons; [apply Forall_cons; [apply S; vm_compute; reflexivity|apply Forall_cons; [exact O|apply Forall_nil]]|apply Forall_nil]|].
  split; [intros s [= <-]; exact Hn|].
  intros e [H|(d & _ & H)]; [discriminate|]. cbn [element_of_plist no_plist] in H. injection H as <-. cbn [echildren]. split; [|apply UNil].
  apply (carried_new "lib"). apply letters_name; [discriminate|vm_compute; reflexivity].
Qed.
Example C106_case : exists t g',
  glyph_ok rust_num no_plist (ex_quoted quoted) /\ carried_glyph no_plist (ex_quoted quoted) /\ ~ blank_note (ex_quoted quoted) /\
  write_text rust_num no_plist false print_xml (ex_quoted quoted) = Ok t /\ read_text rust_num tt no_plist parse_xml t = Ok g' /\
  g_name g' = quoted /\ g_note g' = Some quoted /\ glyph_restored (ex_quoted quoted) g'.
Proof.
  assert (glyph_ok rust_num no_plist (ex_quoted quoted)) as Hok by exact ex_glyph_ok.
  assert (carried_glyph no_plist (ex_quoted quoted)) as Hc by (apply ex_quoted_carried, decided_text; vm_compute; reflexivity).
  assert (~ blank_note (ex_quoted quoted)) as Hb.
  { intros (s & [= <-] & H). specialize (H 97%N (or_introl eq_refl)). unfold blank in H. lia. }
  destruct (C106_text_restored rust_num tt no_plist false (fun f => eq_refl) C106_numbers _ Hok Hc Hb) as (t & g' & H1 & H2 & H3).
  exists t, g'. do 5 (split; [assumption|]). split; [apply H3|]. split; [apply H3|exact H3].
Qed.
(** The note is lost. *)
Example C106_blank_case : exists t g', glyph_ok rust_num no_plist (ex_quoted (lit "  ")) /\ carried_glyph no_plist (ex_quoted (lit "  ")) /\ blank_note (ex_quoted (lit "  ")) /\
  write_text rust_num no_plist false print_xml (ex_quoted (lit "  ")) = Ok t /\ read_text rust_num tt no_plist parse_xml t = Ok g' /\ g_note g' = None.
Proof.
  assert (glyph_ok rust_num no_plist (ex_quoted (lit "  "))) as Hok by exact ex_glyph_ok.
  assert (carried_glyph no_plist (ex_quoted (lit "  "))) as Hc by (apply ex_quoted_carried, decided_text; vm_compute; reflexivity).
  assert (blank_note (ex_quoted (lit "  "))) as Hb.
  { exists (lit "  "). split; [reflexivity|]. intros c [<-|[<-|[]]]; now left. }
  destruct (C106_blank_note rust_num tt no_plist false (fun f => eq_refl) C106_numbers _ Hok Hc Hb) as (t & g' & H1 & H2 & H3).
  exists t, g'. do 5 (split; [assumption|]). apply H3.
Qed.
Definition ex_control : glif unit unit := mkGlif None [] components_default [] [] None [] (lit "A" ++ [1%N]) None None LNone.
Example C106_name_case : exists t, (exists c, In c (g_name ex_control) /\ ~ document_char c) /\ write_text rust_num no_plist false print_xml ex_control = Ok t.
Proof. eexists. split; [|vm_compute; reflexivity]. exists 1%N. split; [right; now left|]. unfold document_char. lia. Qed.
(** The text itself. *)
Example C106_written : write_text rust_num no_plist false print_xml
    (mkGlif None [] components_default [] [] (Some 600%N) [65%N] (lit "A<B") (Some (lit "x & y")) None LNone : glif unit unit) =
  Ok (lit "<?xml version=""1.0"" encoding=""UTF-8""?>" ++ [10%N] ++ lit "<glyph name=""A&lt;B"" format=""2"">" ++ [10%N] ++
      lit "  <advance width=""600""/>" ++ [10%N] ++ lit "  <unicode hex=""41""/>" ++ [10%N] ++
      lit "  <note>x &amp; y</note>" ++ [10%N] ++ lit "</glyph>").
Proof. vm_compute. reflexivity. Qed.
