(** Reading what is not contours does not depend on the contours, and the other way round. *)
Require Import Coq.Strings.String Coq.Lists.List Coq.Arith.Arith Coq.NArith.NArith Coq.ZArith.ZArith Coq.Bool.Bool Coq.Floats.SpecFloat Coq.micromega.Lia.
Require Import Verif.Model.Base Verif.Model.Text Verif.Model.Float Verif.Model.Num Verif.Model.Point Verif.Model.Contour
  Verif.Model.Create Verif.Model.Conv Verif.Model.Strings Verif.Model.Names Verif.Model.Pedantry Verif.Model.Color Verif.Model.Xml
  Verif.Model.Parts Verif.Model.Read Verif.Model.Write
  Verif.Spec.TextSpec Verif.Spec.NumSpec Verif.Spec.OutlineSpec Verif.Spec.GlyphSpec Verif.Spec.DocumentSpec Verif.Spec.OpenSpec Verif.Spec.RestSpec
  Verif.Facts.XmlFacts Verif.Facts.GlyphFacts Verif.Facts.DocumentFacts Verif.Facts.WrittenFacts Verif.Facts.OpenFacts Verif.Facts.AgainFacts.
Import ListNotations.
Local Open Scope string_scope.
Local Open Scope list_scope.

Section Rest.
Context {PD PL : Type} (L : numlib) (pd0 : PD) (P : plistlib PL) (dbg : bool).
Implicit Types g : glif PD PL.

Lemma outline_read root : outline_by_kind L (hd_error (named "outline" root)) =
  let* cs := mapM (fun c => mapM (read_point L) (named "point" c)) (contours_in root) in
  let* ks := mapM (read_component L) (components_in root) in Ok (filter nonempty cs, ks).
Proof. unfold contours_in, components_in. destruct (named "outline" root) as [|o os]; reflexivity. Qed.

Lemma read_like ped r r2 h : ename r = ename r2 -> (forall k, get r k = get r2 k) -> (forall n, lit n <> lit "outline" -> named n r = named n r2) ->
  components_in r = components_in r2 -> contours_in r2 = [] -> read_element L pd0 P ped r2 = Ok h ->
  read_element L pd0 P ped r =
    let* cs := mapM (fun c => mapM (read_point L) (named "point" c)) (contours_in r) in
    let* o := outline_of_glif L (filter nonempty cs) in
    Ok (mkGlif (if nonempty o || nonempty (cs_vec (g_components h)) then Some o else None) (g_anchors h) (g_components h) (g_guidelines h) (g_images h)
               (g_width h) (g_unicode h) (g_name h) (g_note h) None (g_lib h)).
Proof.
  intros En Eg Hn Ek Ec. rewrite !read_element_by_kind. unfold read_by_kind. rewrite !outline_read, Ec, En, !Eg, Ek. cbn [mapM bind].
  rewrite !Hn by discriminate.
  destruct (str_eqb (ename r2) (lit "glyph")); cbn [negb]; [|discriminate].
  destruct (get r2 "format") as [fm|]; cbn [ok_or bind]; [|discriminate].
  destruct (str_eqb fm (lit "2")); cbn [negb]; [|discriminate].
  destruct (get r2 "name") as [nm|]; cbn [ok_or bind]; [|discriminate].
  destruct (match hd_error (named "advance" r2) with Some a => _ | None => _ end) as [w| |]; cbn [bind]; try discriminate.
  destruct (mapM read_unicode _) as [us| |]; cbn [bind]; try discriminate.
  destruct (mapM (read_anchor L pd0 ped) _) as [an| |]; cbn [bind]; try discriminate.
  destruct (mapM (read_image L) _) as [im| |]; cbn [bind]; try discriminate.
  destruct (mapM (read_guideline L pd0) _) as [gl| |]; cbn [bind]; try discriminate.
  destruct (mapM (read_component L) _) as [ks| |]; cbn [bind fst snd filter]; try discriminate.
  intros H. injection H as <-. cbn [g_anchors g_components g_guidelines g_images g_width g_unicode g_name g_note g_lib cs_vec].
  destruct (mapM _ (contours_in r)) as [cs| |]; reflexivity.
Qed.

(** The documents of a glyph and of the glyph without its contours. *)
Lemma written_like g e : glif_xml L P dbg g = Ok e -> exists e2, glif_xml L P dbg (without_contours g) = Ok e2 /\
  ename e = ename e2 /\ (forall k, get e k = get e2 k) /\ (forall n, lit n <> lit "outline" -> named n e = named n e2) /\
  components_in e = components_in e2 /\ contours_in e2 = [].
Proof.
  intros H. assert (exists e2, glif_xml L P dbg (without_contours g) = Ok e2) as (e2 & H2) by (rewrite glif_xml_children; eexists; reflexivity).
  exists e2. split; [exact H2|].
  destruct (glif_xml_parts L P dbg _ _ H) as (ces & ims & C & _ & _ & _ & _ & K).
  destruct (glif_xml_parts L P dbg _ _ H2) as (ces2 & ims2 & C2 & _ & _ & _ & Q2 & K2).
  assert (forall m os, m <> lit "outline" -> children_named m (match os with [] => [] | _ :: _ => [NElem (Element (lit "outline") [] os)] end) = []) as Ho.
  { intros m os Hm. destruct os as [|o os]; [reflexivity|]. apply (children_none m (lit "outline") [Element (lit "outline") [] (o :: os)]); [|congruence || (intros X; apply Hm; congruence)]. repeat constructor. }
  rewrite glif_xml_children in H, H2. rewrite C in H. rewrite C2 in H2. cbn [bind] in H, H2. cbv zeta in H, H2. injection H as <-. injection H2 as <-.
  split; [reflexivity|]. split; [reflexivity|]. split; [|split; [now rewrite K, K2|rewrite Q2; cbn in C2; now injection C2 as <-]].
  intros n Hm.
  unfold named. cbn [echildren without_contours g_width g_unicode g_anchors g_images g_guidelines g_note g_lib g_components].
  rewrite !children_named_app, !Ho by exact Hm. reflexivity.
Qed.
End Rest.
