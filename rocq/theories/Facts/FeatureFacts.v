(** Builds without images or without serde. *)
Require Import Coq.Strings.String Coq.Lists.List Coq.NArith.NArith Coq.Bool.Bool.
Require Import Verif.Model.Base Verif.Model.Text Verif.Model.Num Verif.Model.Point Verif.Model.Contour Verif.Model.Create Verif.Model.Pedantry Verif.Model.Xml Verif.Model.Parts Verif.Model.Read Verif.Model.Write Verif.Model.Features
  Verif.Spec.GlyphSpec Verif.Spec.DocumentSpec Verif.Spec.FeatureSpec Verif.Facts.NamesFacts Verif.Facts.XmlFacts Verif.Facts.DocumentFacts.
Import ListNotations.

Section Features.
Context (L : numlib) {PD PL : Type} (pd0 : PD) (P : plistlib PL).

Definition images_by_kind (F : features) (root : element) : res (list glifimage) := if f_image F then mapM (read_image L) (named "image" root) else Ok [].

Definition read_by_kind_with (F : features) (ped : pedantry) (root : element) : res (glif PD PL) :=
  if negb (str_eqb (ename root) (lit "glyph")) then Err (EInput "Root element not <glyph>")
  else
    let* format := ok_or (get root "format") (EInput "no format in <glyph>") in
    if negb (str_eqb format (lit "2")) then Err (EInput "<glyph> format not 2")
    else
    let* name := ok_or (get root "name") (EInput "<glyph> has no name") in
    let* width := match hd_error (named "advance" root) with
                  | Some a => let* w := read_advance L ped a in Ok (Some w)
                  | None => Ok None
                  end in
    let* unicodes := mapM read_unicode (named "unicode" root) in
    let* anchors := mapM (read_anchor L pd0 ped) (named "anchor" root) in
    let* images := images_by_kind F root in
    let* guidelines := mapM (read_guideline L pd0) (named "guideline" root) in
    let note := match hd_error (named "note" root) with Some n => get_text n | None => None end in
    let* oc := outline_by_kind L (hd_error (named "outline" root)) in
    let lib := read_lib_with P F (hd_error (named "lib" root)) in
    let* o := outline_of_glif L (fst oc) in
    Ok (mkGlif (if nonempty o || nonempty (snd oc) then Some o else None) anchors
               (mkComponents name (snd oc) []) guidelines images width unicodes name note None lib).

Lemma read_images_named F c : exists c', read_images L F c = (let* is := (if f_image F then mapM (read_image L) (children_named (lit "image") c) else Ok []) in Ok (is, c')) /\
  forall m, m <> lit "image" -> children_named m c' = children_named m c.
Proof.
  unfold read_images. destruct (f_image F).
  - exists (without (lit "image") c). rewrite take_all_named. split; [reflexivity|]. intros m Hm. now apply without_named.
  - exists c. split; reflexivity.
Qed.
Lemma read_with_by_kind F ped root : read_element_with L pd0 P F ped root = read_by_kind_with F ped root.
Proof.
  unfold read_element_with, read_by_kind_with, images_by_kind, named.
  destruct (str_eqb (ename root) (lit "glyph")); cbn [negb]; [|reflexivity].
  destruct (get root "format") as [fm|]; cbn [ok_or bind]; [|reflexivity].
  destruct (str_eqb fm (lit "2")); cbn [negb]; [|reflexivity].
  destruct (get root "name") as [nm|]; cbn [ok_or bind]; [|reflexivity].
  set (c := echildren root).
  destruct (take_opt_named "advance" c) as (c1 & -> & H1).
  destruct (match hd_error (children_named (lit "advance") c) with Some a => _ | None => _ end) as [w| |]; cbn [bind]; try reflexivity.
  rewrite take_all_named. rewrite (H1 (lit "unicode")) by discriminate.
  destruct (mapM _ (children_named (lit "unicode") c)) as [us| |]; cbn [bind]; try reflexivity.
  rewrite take_all_named, without_named, (H1 (lit "anchor")) by discriminate.
  destruct (mapM _ (children_named (lit "anchor") c)) as [an| |]; cbn [bind]; try reflexivity.
  match goal with |- context [read_images L F ?x] => destruct (read_images_named F x) as (c5 & -> & H5) end.
  rewrite !without_named, (H1 (lit "image")) by discriminate.
  destruct (if f_image F then _ else _) as [im| |]; cbn [bind]; try reflexivity.
  rewrite take_all_named, (H5 (lit "guideline")), !without_named, (H1 (lit "guideline")) by discriminate.
  destruct (mapM _ (children_named (lit "guideline") c)) as [gl| |]; cbn [bind]; try reflexivity.
  match goal with |- context [take_opt "note" ?x] => destruct (take_opt_named "note" x) as (c2 & -> & H2) end.
  rewrite !without_named, (H5 (lit "note")), !without_named, (H1 (lit "note")) by discriminate.
  destruct (take_opt_named "outline" c2) as (c3 & -> & H3).
  rewrite (H2 (lit "outline")), !without_named, (H5 (lit "outline")), !without_named, (H1 (lit "outline")) by discriminate.
  rewrite read_outline_by_kind.
  destruct (outline_by_kind L (hd_error (children_named (lit "outline") c))) as [[go ks]| |]; cbn [bind]; try reflexivity.
  destruct (take_opt_named "lib" c3) as (c4 & -> & H4).
  rewrite (H3 (lit "lib")), (H2 (lit "lib")), !without_named, (H5 (lit "lib")), !without_named, (H1 (lit "lib")) by discriminate.
  cbn [fst snd]. reflexivity.
Qed.

Lemma cut_named F root n : named n (cut F root) = if unknown F (lit n) then [] else named n root.
Proof.
  unfold named, cut. cbn [echildren]. induction (echildren root) as [|x c IH]; [now destruct (unknown F (lit n))|].
  cbn [filter]. destruct x as [e| | |]; try (rewrite !children_named_cons; exact IH).
  destruct (str_eqb (ename e) (lit n)) eqn:E.
  - apply str_eqb_eq in E. rewrite E. destruct (unknown F (lit n)) eqn:U; cbn [negb]; [exact IH|]. rewrite !children_named_cons, E, str_eqb_refl, IH. reflexivity.
  - rewrite (children_named_cons (lit n) (NElem e) c), E. destruct (unknown F (ename e)); cbn [negb]; [exact IH|]. rewrite children_named_cons, E. exact IH.
Qed.
Lemma read_cut F ped root : read_element_with L pd0 P F ped root = read_element L pd0 P ped (cut F root).
Proof.
  rewrite read_with_by_kind, read_element_by_kind. unfold read_by_kind_with, read_by_kind.
  change (ename (cut F root)) with (ename root). change (get (cut F root)) with (get root). rewrite !cut_named.
  assert (unknown F (lit "image") = negb (f_image F)) as E1 by (unfold unknown; destruct (f_image F), (f_serde F); reflexivity).
  assert (unknown F (lit "lib") = negb (f_serde F)) as E2 by (unfold unknown; destruct (f_image F), (f_serde F); reflexivity).
  assert (forall n, lit n <> lit "image" -> lit n <> lit "lib" -> unknown F (lit n) = false) as E3.
  { intros n N1 N2. unfold unknown. destruct (str_eqb_spec (lit n) (lit "image")) as [E|_]; [contradiction|].
    destruct (str_eqb_spec (lit n) (lit "lib")) as [E|_]; [contradiction|]. rewrite !andb_false_r. reflexivity. }
  rewrite E1, E2, !E3 by discriminate. unfold images_by_kind, read_lib_with. destruct (f_image F), (f_serde F); reflexivity.
Qed.

Lemma read_reduced F ped root g : read_element L pd0 P ped root = Ok g -> read_element_with L pd0 P F ped root = Ok (reduced F g).
Proof.
  rewrite read_with_by_kind, read_element_by_kind. unfold read_by_kind_with, read_by_kind.
  destruct (negb _); [discriminate|]. destruct (get root "format") as [fm|]; cbn [ok_or bind]; [|discriminate]. destruct (negb _); [discriminate|].
  destruct (get root "name") as [nm|]; cbn [ok_or bind]; [|discriminate].
  destruct (match hd_error (named "advance" root) with Some a => _ | None => _ end) as [w| |]; cbn [bind]; try discriminate.
  destruct (mapM _ (named "unicode" root)) as [us| |]; cbn [bind]; try discriminate.
  destruct (mapM _ (named "anchor" root)) as [an| |]; cbn [bind]; try discriminate.
  unfold images_by_kind. destruct (mapM _ (named "image" root)) as [im| |]; cbn [bind]; try discriminate.
  assert ((if f_image F then Ok im else Ok []) = Ok (if f_image F then im else [])) as -> by now destruct (f_image F). cbn [bind].
  destruct (mapM _ (named "guideline" root)) as [gl| |]; cbn [bind]; try discriminate.
  destruct (outline_by_kind L _) as [oc| |]; cbn [bind]; try discriminate. destruct (outline_of_glif L (fst oc)) as [o| |]; cbn [bind]; try discriminate.
  intros H. injection H as <-. unfold reduced, read_lib_with. cbn [g_outline g_anchors g_components g_guidelines g_images g_width g_unicode g_name g_note g_filename g_lib]. reflexivity.
Qed.
Lemma reduced_read F ped root g' : read_element_with L pd0 P F ped root = Ok g' ->
  (f_image F = true \/ exists is, mapM (read_image L) (named "image" root) = Ok is) -> exists g, read_element L pd0 P ped root = Ok g /\ g' = reduced F g.
Proof.
  intros H HI. enough (exists g, read_element L pd0 P ped root = Ok g) as (g & E) by (exists g; split; [exact E|]; apply (read_reduced F) in E; congruence).
  rewrite read_with_by_kind in H. rewrite read_element_by_kind. unfold read_by_kind_with, read_by_kind in *.
  destruct (negb _); [discriminate|]. destruct (get root "format") as [fm|]; cbn [ok_or bind] in *; [|discriminate]. destruct (negb _); [discriminate|].
  destruct (get root "name") as [nm|]; cbn [ok_or bind] in *; [|discriminate].
  destruct (match hd_error (named "advance" root) with Some a => _ | None => _ end) as [w| |]; cbn [bind] in *; try discriminate.
  destruct (mapM _ (named "unicode" root)) as [us| |]; cbn [bind] in *; try discriminate.
  destruct (mapM _ (named "anchor" root)) as [an| |]; cbn [bind] in *; try discriminate.
  assert (exists im, mapM (read_image L) (named "image" root) = Ok im) as (im & Ei).
  { destruct HI as [E|E]; [|exact E]. unfold images_by_kind in H. rewrite E in H. destruct (mapM (read_image L) (named "image" root)); [eauto|discriminate|discriminate]. }
  rewrite Ei. cbn [bind]. destruct (images_by_kind F root); cbn [bind] in *; try discriminate.
  destruct (mapM _ (named "guideline" root)) as [gl| |]; cbn [bind] in *; try discriminate.
  destruct (outline_by_kind L _) as [oc| |]; cbn [bind] in *; try discriminate. destruct (outline_of_glif L (fst oc)) as [o| |]; cbn [bind] in *; try discriminate. eauto.
Qed.

Lemma write_reduced F dbg (g : glif PD PL) : glif_xml_with L P F dbg g = glif_xml L P dbg (reduced (mkFeatures (f_image F) true) g).
Proof. unfold glif_xml_with, glif_xml, reduced. cbn. destruct (outline_children L dbg (g_outline g)); cbn [bind]; try reflexivity. destruct (f_image F); reflexivity. Qed.

Lemma reduced_ok F (g : glif PD PL) : glyph_ok L P g -> glyph_ok L P (reduced F g).
Proof.
  intros (H1 & H2 & H3 & H4 & H5 & H6 & H7 & H8). unfold glyph_ok, reduced. cbn [g_outline g_anchors g_components g_guidelines g_images g_width g_unicode g_name g_note g_filename g_lib].
  repeat (split; [assumption|]). split; [destruct (f_image F); [assumption|constructor]|]. split; [destruct (f_serde F); [assumption|exact I]|]. exact H8.
Qed.
End Features.
