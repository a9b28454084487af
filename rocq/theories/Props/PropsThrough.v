(** C121: saving a glyph through an MFEK glyph. *)
Require Import Coq.Strings.String Coq.Lists.List Coq.Arith.Arith Coq.NArith.NArith Coq.ZArith.ZArith Coq.Bool.Bool Coq.Floats.SpecFloat Coq.micromega.Lia.
Require Import Verif.Model.Base Verif.Model.Text Verif.Model.Float Verif.Model.Num Verif.Model.RustNum Verif.Model.Point Verif.Model.Contour Verif.Model.Create Verif.Model.Names Verif.Model.Pedantry
  Verif.Model.Color Verif.Model.Xml Verif.Model.XmlText Verif.Model.Plist Verif.Model.Utf8 Verif.Model.Parts Verif.Model.Read Verif.Model.Write Verif.Model.Interop Verif.Model.Component Verif.Model.Mpoint Verif.Model.Mfek
  Verif.Spec.TextSpec Verif.Spec.GlyphSpec Verif.Spec.DocumentSpec Verif.Spec.OpenSpec Verif.Spec.XmlTextSpec Verif.Spec.PlistSpec Verif.Spec.GrammarSpec Verif.Spec.BytesSpec
  Verif.Spec.FileSpec Verif.Spec.ZeroSpec Verif.Spec.ThroughSpec
  Verif.Facts.NamesFacts Verif.Facts.RustNumFacts Verif.Facts.XmlTextFacts Verif.Facts.XmlGlyphFacts Verif.Facts.BytesFacts Verif.Facts.WrittenFacts Verif.Facts.DocumentFacts Verif.Facts.OpenFacts
  Verif.Facts.AgainFacts Verif.Facts.PlistFacts Verif.Facts.GrammarFacts Verif.Facts.FileFacts
  Verif.Props.PropsGlyph Verif.Props.PropsMfek Verif.Props.PropsXml Verif.Props.PropsPlist Verif.Props.PropsBytes Verif.Props.PropsFile.
Import ListNotations.
Local Notation pvalue := Plist.pvalue.
Local Open Scope string_scope.
Local Open Scope list_scope.

Local Notation keeps := (fun n => match n with NElem c => negb (str_eqb (ename c) (lit "lib")) | _ => true end).
Lemma keeps_all n l : lit n <> lit "lib" -> Forall (fun e => ename e = lit n) l -> filter keeps (map NElem l) = map NElem l.
Proof.
  intros N. induction 1 as [|e l E _ IH]; [reflexivity|]. cbn [map filter]. rewrite E. destruct (str_eqb (lit n) (lit "lib")) eqn:Q; [apply str_eqb_eq in Q; contradiction|]. cbn [negb]. now rewrite IH.
Qed.
Lemma keeps_none l : Forall (fun e => ename e = lit "lib") l -> filter keeps (map NElem l) = [].
Proof. induction 1 as [|e l E _ IH]; [reflexivity|]. cbn [map filter]. rewrite E. replace (str_eqb (lit "lib") (lit "lib")) with true by (vm_compute; reflexivity). exact IH. Qed.

Lemma libless_written (L : numlib) {PD PL} (P : plistlib PL) dbg (g g2 : glif PD PL) :
  contours g2 = contours g -> g_anchors g2 = g_anchors g -> cs_vec (g_components g2) = cs_vec (g_components g) -> g_guidelines g2 = g_guidelines g -> g_images g2 = g_images g ->
  g_width g2 = g_width g -> g_unicode g2 = g_unicode g -> g_name g2 = g_name g -> g_note g2 = g_note g -> g_lib g2 = LNone ->
  (forall e, glif_xml L P dbg g = Ok e -> glif_xml L P dbg g2 = Ok (without_lib e)) /\ (glif_xml L P dbg g = Panic -> glif_xml L P dbg g2 = Panic).
Proof.
  intros E1 E2 E3 E4 E5 E6 E7 E8 E9 E10. rewrite !glif_xml_children, E1, E2, E3, E4, E5, E6, E7, E8, E9, E10.
  destruct (mapM (contour_xml L dbg) (contours g)) as [ces| |]; (split; [intros e0 H|intros H]); try discriminate; try reflexivity.
  cbn [bind] in *. cbv zeta in *. injection H as <-. unfold without_lib. cbn [ename eattrs echildren]. do 2 f_equal. rewrite !filter_app.
  destruct (image_nodes_ok L (g_images g)) as (ims & I1 & I2 & _). destruct (lib_nodes_ok P (g_lib g)) as (ls & L1 & L2 & _). rewrite I1, L1, (keeps_none ls L2), (keeps_all "image" ims) by (assumption || (vm_compute; discriminate)).
  f_equal; [destruct (g_width g); reflexivity|]. f_equal; [symmetry; apply (keeps_all "unicode"); [vm_compute; discriminate|]; apply Forall_map, Forall_forall; reflexivity|].
  f_equal; [symmetry; apply (keeps_all "anchor"); [vm_compute; discriminate|]; apply (Forall_map_name (anchor_xml L) _ (g_anchors g) (anchor_name L))|].
  f_equal; [destruct (map NElem ces ++ _); reflexivity|]. f_equal.
  f_equal; [symmetry; apply (keeps_all "guideline"); [vm_compute; discriminate|]; apply (Forall_map_name (guideline_xml L) _ (g_guidelines g) (guideline_name L))|].
  destruct (g_note g); reflexivity.
Qed.

Lemma named_without n e : lit n <> lit "lib" -> GlyphSpec.named n (without_lib e) = GlyphSpec.named n e.
Proof.
  intros N. unfold GlyphSpec.named, without_lib, children_named. cbn [echildren]. generalize (echildren e). intros l. induction l as [|[c|s|s|] l IH]; cbn [filter flat_map]; try exact IH; [reflexivity|].
  destruct (str_eqb (ename c) (lit "lib")) eqn:E; cbn [negb flat_map]; [|now rewrite IH].
  apply str_eqb_eq in E. rewrite E, IH. destruct (list_eq_dec N.eq_dec (lit "lib") (lit n)) as [Q|_]; [congruence|reflexivity].
Qed.
Lemma named_lib_gone e : GlyphSpec.named "lib" (without_lib e) = [].
Proof.
  unfold GlyphSpec.named, without_lib, children_named. cbn [echildren]. generalize (echildren e). intros l. induction l as [|[c|s|s|] l IH]; cbn [filter flat_map]; try exact IH; [reflexivity|].
  destruct (str_eqb (ename c) (lit "lib")) eqn:E; cbn [negb flat_map]; [exact IH|]. rewrite IH. destruct (list_eq_dec N.eq_dec (ename c) (lit "lib")) as [Q|_]; [|reflexivity].
  apply str_eqb_eq in Q. congruence.
Qed.

Lemma found_libless {PD PL} fn (h0 h : glif PD PL) : found_in fn h0 h -> found_in fn (libless h0) (libless h).
Proof. intros (E1 & F & E2 & E3 & Eo & Ea & Eg & Ei & Ew & Eu & En & Et & El). unfold found_in. cbn [libless g_outline g_anchors g_components g_guidelines g_images g_width g_unicode g_name g_note g_filename g_lib]. repeat (split; [assumption|]). reflexivity. Qed.

(** C121: a document without its lib is opened as the glyph without its lib. *)
Theorem C121_lib_only : forall (L : numlib) (PD PL : Type) (pd0 : PD) (P : plistlib PL) (ped : pedantry) (root : element) (g : glif PD PL),
  read_element L pd0 P ped root = Ok g -> read_element L pd0 P ped (without_lib root) = Ok (libless g).
Proof.
  intros L PD PL pd0 P ped root g H. apply read_element_says in H. apply read_element_says. unfold document_says in *.
  rewrite !named_without, named_lib_gone by (vm_compute; discriminate). destruct H as (H1 & H2 & H3 & H4 & H5 & H6 & H7 & H8 & H9 & _ & H10 & H11 & H12 & gcs & o & H13 & H14).
  cbn [libless g_outline g_anchors g_components g_guidelines g_images g_width g_unicode g_name g_note g_filename g_lib]. do 9 (split; [assumption|]). split; [reflexivity|]. do 3 (split; [assumption|]).
  exists gcs, o. rewrite named_without by (vm_compute; discriminate). now split.
Qed.
Print Assumptions C121_lib_only.

(** C121: a glyph turned into an MFEK glyph and back is saved as the document the glyph is saved as, without its
    lib, and cannot be saved if the glyph cannot. *)
Theorem C121_saved_through : forall (L : numlib) (PD PL H : Type) (P : plistlib PL) (dbg : bool) (g : glif PD PL),
  exists g2, glif_of_mglif (mglif_of_glif g : mglif PD H) = Ok g2 /\
    (forall e, glif_xml L P dbg g = Ok e -> glif_xml L P dbg g2 = Ok (without_lib e)) /\ (glif_xml L P dbg g = Panic -> glif_xml L P dbg g2 = Panic).
Proof.
  intros L PD PL H P dbg g. eexists. split; [apply C46_there_and_back|]. apply libless_written; reflexivity.
Qed.
Print Assumptions C121_saved_through.

(** C121: MFEK glyphs with the same first layer are saved alike, whatever their other layers, operations, histories. *)
Theorem C121_first_layer : forall (L : numlib) (PD PL H H' : Type) (P : plistlib PL) (dbg : bool) (m : mglif PD H) (m' : mglif PD H'),
  same_front m m' ->
  match glif_of_mglif m : res (glif PD PL) with
  | Ok g => exists g', glif_of_mglif m' = Ok g' /\ glif_xml L P dbg g' = glif_xml L P dbg g
  | r => glif_of_mglif m' = r
  end.
Proof.
  intros L PD PL H H' P dbg m m' (E1 & E2 & E3 & E4 & E5 & E6 & E7 & l & l' & Hl & Hl' & Eo & Ei). unfold glif_of_mglif, idx. rewrite Hl, Hl'. cbn [bind].
  assert (mapM (fun c => cubic_points (mc_inner c)) (l_outline l') = mapM (fun c => cubic_points (mc_inner c)) (l_outline l)) as ->.
  { revert Eo. generalize (l_outline l) (l_outline l'). intros o. induction o as [|c o IH]; intros [|c' o'] E; try discriminate; [reflexivity|]. cbn [map] in E. injection E as Ec Eo. cbn [mapM]. now rewrite Ec, (IH o' Eo). }
  destruct (mapM _ (l_outline l)) as [o| |]; try reflexivity. cbn [bind]. eexists. split; [reflexivity|]. rewrite !glif_xml_children. unfold contours.
  cbn [g_outline g_anchors g_components g_guidelines g_images g_width g_unicode g_name g_note g_filename g_lib]. now rewrite E1, E2, E3, E4, E5, E6, E7, Ei.
Qed.
Print Assumptions C121_first_layer.

Section C121.
Context {X : Type} (Sc : scalars X) {PD : Type} (pd0 : PD) (dbg : bool) (HS : faithful_scalars Sc).
Local Notation P := (xml_plist Sc).
Local Notation load disk fn := (read_from_filename rust_num pd0 P str (texts_of disk) parse_xml pedantry_default fn).
Local Notation bytes g := (write_text rust_num P dbg print_bytes g).
Local Notation glyph := (glif PD (list (str * pvalue X))).

(** C121: whatever file was opened, if saving it directly works, so does saving it through an MFEK glyph, and what is
    opened then is the same without its lib. *)
Theorem C121_file : forall (H : Type) disk fn b root (g : glyph) b1,
  disk fn = Some b -> file_says b root -> load disk fn = Ok g -> lasting_texts g -> bytes g = Ok b1 ->
  exists (g2 : glyph) b2, glif_of_mglif (mglif_of_glif g : mglif PD H) = Ok g2 /\ bytes g2 = Ok b2 /\
    forall fn' h, load (fun _ => Some b1) fn' = Ok h -> load (fun _ => Some b2) fn' = Ok (libless h).
Proof.
  intros H disk fn b root g b1 Hd Hf Hl Ht Hb. destruct (opened_from Sc pd0 disk fn b root g Hf Hd Hl) as (g0 & H0 & Hfo & Hc).
  destruct (found_same fn g0 g Hfo) as (_ & _ & F3 & _). specialize (F3 Ht).
  pose proof (opened_lib Sc pd0 rust_num pedantry_default root g0 Hc H0 HS (proj2 (proj2 F3))) as Hlib.
  assert (carried_lib P (g_lib g0)) as K2.
  { destruct (g_lib g0) as [|d|x]; [| |contradiction].
    - intros e [E|(d & E & _)]; discriminate.
    - destruct Hlib as (W1 & W2 & W3 & W4 & W5). now apply C108_restored. }
  assert (carried_glyph P g0) as Hca by (now apply (opened_carried_any Sc pd0 rust_num pedantry_default root g0)).
  assert (carried_glyph P (libless g0)) as Hca2.
  { destruct Hca as (C1 & C2 & C3 & C4 & C5 & C6 & C7 & _). unfold carried_glyph. do 7 (split; [assumption|]). intros e [E|(d & E & _)]; discriminate. }
  destruct (C121_saved_through rust_num PD _ H P dbg g) as (g2 & E2 & Hs & _). pose proof (found_written rust_num P dbg fn g0 g Hfo) as Hw.
  unfold write_text in Hb. rewrite Hw in Hb, Hs. destruct (glif_xml rust_num P dbg g0) as [e| |] eqn:He; try discriminate. cbn [bind] in Hb. specialize (Hs e eq_refl).
  assert (forall k : glyph, forall e', glif_xml rust_num P dbg k = Ok e' -> glif_xml rust_num P dbg (libless k) = Ok (without_lib e')) as Hless by (intros k; now apply libless_written).
  pose proof (Hless g0 e He) as He2.
  destruct (glif_carried rust_num pd0 P dbg C106_numbers g0 e He Hca) as (A1 & A2 & A3). destruct (parse_print e A1) as (t & Hpt & Hpr).
  destruct (glif_carried rust_num pd0 P dbg C106_numbers (libless g0) _ He2 Hca2) as (B1 & B2 & B3). destruct (parse_print _ B1) as (t2 & Hpt2 & Hpr2).
  unfold print_bytes in Hb. rewrite Hpt in Hb. injection Hb as <-. exists g2, (utf8_encode t2). split; [exact E2|]. split; [unfold write_text; rewrite Hs; cbn [bind]; unfold print_bytes; now rewrite Hpt2|].
  assert (utf8_decode (utf8_encode t) = Some t) as Hde by (apply decode_encode, parsed_scalars with (e := unblank e); exact Hpr).
  assert (utf8_decode (utf8_encode t2) = Some t2) as Hde2 by (apply decode_encode, parsed_scalars with (e := unblank (without_lib e)); exact Hpr2).
  intros fn' h Hh. apply read_file_is in Hh as (t' & r' & h0 & Q1 & Q2 & Q3 & Q4). unfold texts_of in Q1. rewrite Hde in Q1. injection Q1 as <-. rewrite Hpr in Q2. injection Q2 as <-. apply read_element_says in Q3.
  apply read_file_is. exists t2, (unblank (without_lib e)), (libless h0). split; [exact Hde2|]. split; [exact Hpr2|]. split; [|exact (found_libless fn' h0 h Q4)]. apply read_element_says.
  assert (blank_note g0 \/ ~ blank_note g0) as [B|B].
  { unfold blank_note. destruct (g_note g0) as [s|]; [|right; intros (s & E & _); discriminate]. destruct (blankb s) eqn:E; [left; exists s; split; [reflexivity|now apply blankb_iff]|].
    right. intros (s' & E' & B). injection E' as <-. apply (proj2 (blankb_iff s)) in B. congruence. }
  - destruct (A3 B) as (e0 & D1 & D2). destruct (B3 B) as (e1 & D3 & D4). rewrite D2 in Q3. rewrite D4. apply Hless in D1.
    assert (e1 = without_lib e0) as -> by (change (noteless (libless g0)) with (libless (noteless g0)) in D3; congruence). now apply C121_lib_only.
  - rewrite (A2 B) in Q3. rewrite (B2 B). now apply C121_lib_only.
Qed.
End C121.
Print Assumptions C121_file.

(** A file with a lib and a contour, and an MFEK glyph with a second layer and an operation. *)
Definition lib_file : str :=
  lit "<?xml version='1.0'?><glyph format='2' name=""A""><note>n</note><outline><contour><point x='1' y='2' type='line'/><point x='5' y='2' type='line'/></contour></outline><lib><dict><key>k</key><string>v</string></dict></lib></glyph>".
Example C121_file_case : exists root (g g2 h : glif unit (list (str * pvalue f32))) b1 b2, file_says (utf8_encode lib_file) root /\
  read_from_filename rust_num tt (xml_plist reals) str (texts_of (fun _ => Some (utf8_encode lib_file))) parse_xml pedantry_default [lit "a.glif"] = Ok g /\
  lasting_texts g /\ write_text rust_num (xml_plist reals) false print_bytes g = Ok b1 /\
  glif_of_mglif (mglif_of_glif g : mglif unit unit) = Ok g2 /\ write_text rust_num (xml_plist reals) false print_bytes g2 = Ok b2 /\ b1 <> b2 /\
  read_from_filename rust_num tt (xml_plist reals) str (texts_of (fun _ => Some b2)) parse_xml pedantry_default [lit "a.glif"] = Ok h /\ h = libless g /\ g_lib g <> LNone.
Proof.
  assert (exists root, parse_xml lib_file = Some root) as (root & E) by (eexists; vm_compute; reflexivity).
  exists root. do 5 eexists. split; [exists lib_file; split; [apply decode_iff, decode_encode, parsed_scalars with (e := root); exact E|now apply parse_document]|]. clear E.
  split; [vm_compute; reflexivity|]. split; [split; [|split]|].
  - intros s H. vm_compute in H. repeat (destruct H as [<-|H]; [intros Q; vm_compute in Q; repeat (destruct Q as [Q|Q]; [discriminate Q|]); exact Q|]). destruct H.
  - intros s [= <-] Q. vm_compute in Q. repeat (destruct Q as [Q|Q]; [discriminate Q|]). exact Q.
  - intros s (d & Q & Hs). injection Q as <-.
    assert (s = lit "k" \/ s = lit "v") as Hk.
    { clear -Hs. destruct Hs as [Hs|(d & x & Hs & Hi)].
      - inversion Hs as [|? ? ? Hv Hw|? ? ? ? Hv Hw]. subst. destruct Hv as [Hv|[]]. injection Hv as <- <-. inversion Hw. now right.
      - inversion Hs as [|? ? ? Hv Hw|? ? ? ? Hv Hw]; subst.
        + destruct Hi as [Hi|[]]. injection Hi as <- _. now left.
        + destruct Hv as [Hv|[]]. injection Hv as <- <-. inversion Hw. }
    destruct Hk as [->| ->]; (split; [intros Q; vm_compute in Q; repeat (destruct Q as [Q|Q]; [discriminate Q|]); exact Q|right]); intros A; specialize (A _ (or_introl eq_refl)); vm_compute in A; repeat (destruct A as [A|A]; [discriminate A|]); try discriminate A; now destruct A.
  - split; [vm_compute; reflexivity|]. split; [vm_compute; reflexivity|]. split; [vm_compute; reflexivity|]. split; [vm_compute; discriminate|]. split; [vm_compute; reflexivity|]. split; [vm_compute; reflexivity|vm_compute; discriminate].
Qed.
(** The same glyph with a second layer and another name of the first is saved as the same file. *)
Example C121_layers_case : exists (m m' : mglif unit unit) (g : glif unit unit), same_front m m' /\ List.length (mg_layers m) = 1 /\ List.length (mg_layers m') = 2 /\
  glif_of_mglif m = Ok g /\ g_outline g <> Some [] /\ m <> m'.
Proof.
  set (g0 := mkGlif (PD := unit) (PL := unit) (Some [[mkPoint (f32_of_Z 1) (f32_of_Z 2) Colocated Colocated None Line false None]]) [] components_default [] [] None [] (lit "A") None None LNone).
  set (m := mglif_of_glif g0 : mglif unit unit).
  exists m, (mg_with_layers m [mkLayer (lit "drawing") false None (map mcontour_of (contours g0)) None []; mkLayer (lit "other") true None [] None []]). eexists.
  split; [|split; [reflexivity|split; [reflexivity|split; [reflexivity|split; discriminate]]]].
  unfold same_front. cbn. do 7 (split; [reflexivity|]). do 2 eexists. split; [reflexivity|]. split; [reflexivity|]. split; reflexivity.
Qed.
