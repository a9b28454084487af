(** C119: contours and the rest of a glyph do not disturb each other, in files. *)
Require Import Coq.Strings.String Coq.Lists.List Coq.Arith.Arith Coq.NArith.NArith Coq.ZArith.ZArith Coq.Bool.Bool Coq.Floats.SpecFloat Coq.micromega.Lia.
Require Import Verif.Model.Base Verif.Model.Text Verif.Model.Float Verif.Model.Num Verif.Model.RustNum Verif.Model.Point Verif.Model.Names Verif.Model.Pedantry
  Verif.Model.Color Verif.Model.Xml Verif.Model.XmlText Verif.Model.Plist Verif.Model.Utf8 Verif.Model.Parts Verif.Model.Read Verif.Model.Write Verif.Model.Interop
  Verif.Spec.TextSpec Verif.Spec.GlyphSpec Verif.Spec.DocumentSpec Verif.Spec.OpenSpec Verif.Spec.XmlTextSpec Verif.Spec.PlistSpec Verif.Spec.GrammarSpec Verif.Spec.BytesSpec
  Verif.Spec.FileSpec Verif.Spec.ZeroSpec Verif.Spec.RestSpec
  Verif.Facts.RustNumFacts Verif.Facts.XmlTextFacts Verif.Facts.XmlGlyphFacts Verif.Facts.BytesFacts Verif.Facts.WrittenFacts Verif.Facts.DocumentFacts Verif.Facts.OpenFacts
  Verif.Facts.AgainFacts Verif.Facts.PlistFacts Verif.Facts.GrammarFacts Verif.Facts.FileFacts Verif.Facts.ZeroFacts
  Verif.Props.PropsGlyph Verif.Props.PropsXml Verif.Props.PropsPlist Verif.Props.PropsBytes Verif.Props.PropsFile Verif.Props.PropsZero Verif.Props.PropsZeroFile Verif.Props.PropsRest.
Import ListNotations.
Local Open Scope list_scope.

Section C119.
Context {X : Type} (S : scalars X) {PD : Type} (pd0 : PD) (dbg : bool) (HS : faithful_scalars S).
Local Notation P := (xml_plist S).
Local Notation load disk fn := (read_from_filename rust_num pd0 P str (texts_of disk) parse_xml pedantry_default fn).
Local Notation bytes g := (write_text rust_num P dbg print_bytes g).
Local Notation glyph := (glif PD (list (str * pvalue X))).

(** C119: whatever file was opened, whoever wrote it, with whatever contours: if it was saved and what
    was saved was opened, everything but the contours is restored, up to the minus signs of zeros; but
    a note of nothing but blanks is lost. *)
Theorem C119_file : forall disk fn b root (g : glyph) b' disk' fn' (g' : glyph),
  disk fn = Some b -> file_says b root -> load disk fn = Ok g -> lasting_texts g ->
  bytes g = Ok b' -> disk' fn' = Some b' -> load disk' fn' = Ok g' ->
  (~ blank_note g -> glyph_restored (without_contours (plus_zeros g)) (without_contours g')) /\
  (blank_note g -> glyph_restored (without_contours (noteless (plus_zeros g))) (without_contours g')).
Proof.
  intros disk fn b root g b' disk' fn' g' Hd Hf Hl Ht Hb Hd' Hl'. destruct (opened_from S pd0 disk fn b root g Hf Hd Hl) as (g0 & H0 & Hfo & Hc).
  destruct (found_same fn g0 g Hfo) as (_ & _ & F3 & _ & F5 & _).
  pose proof (opened_lib S pd0 rust_num pedantry_default root g0 Hc H0 HS (proj2 (proj2 (F3 Ht)))) as Hlib.
  assert (lib_ok P (g_lib g0) /\ carried_lib P (g_lib g0)) as [K1 K2].
  { destruct (g_lib g0) as [|d|x]; [| |contradiction].
    - split; [exact I|]. intros e [E|(d & E & _)]; discriminate.
    - destruct Hlib as (W1 & W2 & W3 & W4 & W5). now apply C108_restored. }
  assert (carried_glyph P g0) as Hca by (specialize (F3 Ht); now apply (opened_carried_any S pd0 rust_num pedantry_default root g0)).
  pose proof (opened_rest pd0 P pedantry_default root g0 H0 K1) as Hok.
  unfold write_text in Hb. rewrite (found_written rust_num P dbg fn g0 g Hfo) in Hb. destruct (glif_xml rust_num P dbg g0) as [e| |] eqn:He; try discriminate. cbn [bind] in Hb.
  destruct (glif_carried rust_num pd0 P dbg C106_numbers g0 e He Hca) as (H1 & H2 & H3). destruct (parse_print e H1) as (t & Ht' & Hpr).
  assert (b' = utf8_encode t) as ->. { unfold print_bytes in Hb. rewrite Ht' in Hb. cbn in Hb. congruence. }
  assert (utf8_decode (utf8_encode t) = Some t) as Hde by (apply decode_encode, parsed_scalars with (e := unblank e); exact Hpr).
  assert (exists h : glyph, read_element rust_num pd0 P pedantry_default (unblank e) = Ok h /\ found_in fn' h g') as (h & Hh & Hfo').
  { apply read_file_is in Hl' as (t2 & r2 & h & A1 & A2 & A3 & A4). unfold texts_of in A1. rewrite Hd', Hde in A1. injection A1 as <-. rewrite Hpr in A2. injection A2 as <-.
    apply read_element_says in A3. exists h. split; [exact A3|exact A4]. }
  assert (forall k : glyph, glyph_restored (without_contours k) (without_contours h) -> glyph_restored (without_contours k) (without_contours g')) as R.
  { intros k Q. destruct Hfo' as (_ & F & _ & _ & Eo & Ea & Eg & Ei & Ew & Eu & En & Et & El). revert Q. unfold glyph_restored, contours. cbn [without_contours g_name g_width g_unicode g_anchors g_guidelines g_components g_images g_note g_lib g_outline]. rewrite Ea, Eg, Ei, Ew, Eu, En, Et, El.
    intros (Q1 & Q2 & Q3 & Q4 & Q5 & Q6 & Q7). do 5 (split; [assumption|]). split; [|exact Q7]. clear -F Q6. revert Q6. generalize (cs_vec (g_components k)). induction F as [|c0 c l0 l (X1 & X2 & X3 & _) _ IH]; intros m H; [exact H|].
    inversion_clear H as [|? ? ? ? H1 H2]. constructor; [|now apply IH]. unfold component_restored in *. now rewrite X1, X2, X3. }
  assert (forall g1 : glyph, glyph_restored (without_contours (plus_zeros g0)) g1 -> glyph_restored (without_contours (plus_zeros g)) g1) as T.
  { intros g1. destruct (found_plus fn g0 g Hfo) as (_ & F & _ & _ & Eo & Ea & Eg & Ei & Ew & Eu & En & Et & El). unfold glyph_restored, contours. cbn [without_contours g_name g_width g_unicode g_anchors g_guidelines g_components g_images g_note g_lib g_outline].
    rewrite Ea, Eg, Ei, Ew, Eu, En, Et, El. intros (Q1 & Q2 & Q3 & Q4 & Q5 & Q6 & Q7). do 5 (split; [assumption|]). split; [|exact Q7]. clear -F Q6. revert Q6. generalize (cs_vec (g_components g1)).
    induction F as [|c0 c l0 l (X1 & X2 & X3 & _) _ IH]; intros m H; [exact H|]. inversion H as [|? ? ? ? H1 H2]; subst. constructor; [|now apply IH]. unfold component_restored in *. now rewrite X1, X2, X3 in *. }
  split; intros Hn; rewrite F5 in Hn.
  - rewrite (H2 Hn) in Hh. apply T, R. exact (rest_restored PD _ pd0 P dbg e g0 h Hok He Hh).
  - destruct (H3 Hn) as (e1 & E1 & E2). rewrite E2 in Hh. pose proof (rest_restored PD _ pd0 P dbg e1 (noteless g0) h Hok E1 Hh) as Q. apply R in Q.
    destruct Q as (Q1 & Q2 & Q3 & Q4 & Q5 & Q6 & Q7 & Q8 & Q9 & Q10).
    assert (glyph_restored (without_contours (plus_zeros g0)) (mkGlif None (g_anchors g') (g_components g') (g_guidelines g') (g_images g') (g_width g') (g_unicode g') (g_name g') (g_note g0) (g_filename g') (g_lib g'))) as Q.
    { repeat (split; [assumption|]). split; [reflexivity|]. now split. }
    apply T in Q as (U1 & U2 & U3 & U4 & U5 & U6 & U7 & _ & U9 & U10). do 7 (split; [assumption|]). split; [exact Q8|]. split; assumption.
Qed.
End C119.
Print Assumptions C119_file.

(** A file with a quadratic contour, an anchor and a component; the contour is not restored. *)
Definition quadratic_file : str :=
  lit "<?xml version='1.0'?><glyph format='2' name=""A""><anchor x='-0.0' y='2' name='top'/><note>n</note><outline><contour><point x='0' y='0' type='qcurve'/><point x='50' y='80'/><point x='100' y='0' type='qcurve'/></contour><component base='B' yOffset='7'/></outline></glyph>".
Definition quadratic_disk (p : path) : option (list N) := if list_eq_dec (list_eq_dec N.eq_dec) p [lit "a.glif"] then Some (utf8_encode quadratic_file) else None.
Example C119_file_case : exists root (g g' : glif unit (list (str * pvalue f32))) b',
  quadratic_disk [lit "a.glif"] = Some (utf8_encode quadratic_file) /\ file_says (utf8_encode quadratic_file) root /\
  read_from_filename rust_num tt (xml_plist reals) str (texts_of quadratic_disk) parse_xml pedantry_default [lit "a.glif"] = Ok g /\
  lasting_texts g /\ ~ blank_note g /\ write_text rust_num (xml_plist reals) false print_bytes g = Ok b' /\
  read_from_filename rust_num tt (xml_plist reals) str (texts_of (fun _ => Some b')) parse_xml pedantry_default [lit "b.glif"] = Ok g' /\
  map (map pptype) (contours g) <> map (map pptype) (contours g').
Proof.
  assert (exists root, parse_xml quadratic_file = Some root) as (root & E) by (eexists; vm_compute; reflexivity).
  exists root. do 3 eexists. split; [reflexivity|]. split.
  { exists quadratic_file. split; [apply decode_iff, decode_encode, parsed_scalars with (e := root); exact E|now apply parse_document]. }
  split; [vm_compute; reflexivity|]. clear E. split; [split; [|split]|].
  - intros s H. vm_compute in H. repeat (destruct H as [<-|H]; [intros Q; vm_compute in Q; repeat (destruct Q as [Q|Q]; [discriminate Q|]); exact Q|]). destruct H.
  - intros s [= <-] Q. vm_compute in Q. repeat (destruct Q as [Q|Q]; [discriminate Q|]). exact Q.
  - intros s (d & Q & _). discriminate Q.
  - split; [|split; [vm_compute; reflexivity|split; [vm_compute; reflexivity|vm_compute; discriminate]]].
    intros (s & [= <-] & H). specialize (H _ (or_introl eq_refl)). vm_compute in H. repeat (destruct H as [H|H]; [discriminate H|]). discriminate H.
Qed.
