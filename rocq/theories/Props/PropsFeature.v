(** Property C112: builds of the library without images or without serde. *)
Require Import Coq.Strings.String Coq.Lists.List Coq.NArith.NArith Coq.Bool.Bool.
Require Import Verif.Model.Base Verif.Model.Text Verif.Model.Num Verif.Model.RustNum Verif.Model.Point Verif.Model.Pedantry Verif.Model.Xml Verif.Model.Parts Verif.Model.Read Verif.Model.Write Verif.Model.Features
  Verif.Spec.GlyphSpec Verif.Spec.DocumentSpec Verif.Spec.FeatureSpec Verif.Facts.DocumentFacts Verif.Facts.FeatureFacts Verif.Props.PropsGlyph.
Import ListNotations.

(** With both features: what is meant by reading and writing everywhere else. *)
Theorem C112_default : forall (L : numlib) (PD PL : Type) (pd0 : PD) (P : plistlib PL),
  (forall ped root, read_element_with L pd0 P (mkFeatures true true) ped root = read_element L pd0 P ped root) /\
  (forall dbg (g : glif PD PL), glif_xml_with L P (mkFeatures true true) dbg g = glif_xml L P dbg g).
Proof.
  intros L PD PL pd0 P. split; [reflexivity|]. intros dbg g. rewrite write_reduced. destruct g. reflexivity.
Qed.
Print Assumptions C112_default.

(** C112: a build without a feature reads exactly what the full build reads from the document
    without the elements concerned: same glyph, same error. *)
Theorem C112_read_exactly : forall (L : numlib) (PD PL : Type) (pd0 : PD) (P : plistlib PL) F ped root,
  read_element_with L pd0 P F ped root = read_element L pd0 P ped (cut F root).
Proof. intros. apply read_cut. Qed.
Print Assumptions C112_read_exactly.

(** C112: every document the full build reads is read, as the same glyph without images or lib.
    Conversely what is read is read by the full build, unless an image in it is faulty. *)
Theorem C112_reads_more : forall (L : numlib) (PD PL : Type) (pd0 : PD) (P : plistlib PL) F ped root (g' : glif PD PL),
  (exists g, read_element L pd0 P ped root = Ok g /\ g' = reduced F g) <->
  (read_element_with L pd0 P F ped root = Ok g' /\ forall e, In e (named "image" root) -> exists i, image_says L e i).
Proof.
  intros L PD PL pd0 P F ped root g'. split.
  - intros (g & H & ->). split; [now apply read_reduced|]. apply read_element_says in H. destruct H as (_ & _ & _ & _ & _ & _ & Hi & _).
    intros e He. clear -Hi He. induction Hi as [|x i l m Hx _ IH]; [destruct He|]. destruct He as [->|He]; [eauto|auto].
  - intros (H & Hi). destruct (reduced_read L pd0 P F ped root g' H) as (g & E1 & E2); [|eauto]. right.
    assert (exists is, Forall2 (image_says L) (named "image" root) is) as (is & Ei).
    { clear H. induction (named "image" root) as [|x l IH]; [exists []; constructor|]. destruct (Hi x (or_introl eq_refl)) as (i & Hx).
      destruct IH as (is & Hl); [intros e He; apply Hi; now right|]. exists (i :: is). now constructor. }
    exists is. apply (mapM_says (read_image L) (image_says L) (read_image_says L)). exact Ei.
Qed.
Print Assumptions C112_reads_more.

(** C112: what such a build opens and saves is, for the full build, the glyph without images or lib. *)
Theorem C112_opened_and_saved : forall (L : numlib) (PD PL : Type) (pd0 : PD) (P : plistlib PL) F ped dbg root (g : glif PD PL),
  (forall f, f32_of_iof (iof_of_f32 L f) = f) -> read_element L pd0 P ped root = Ok g -> glyph_ok L P (reduced F g) ->
  exists g1 e g2, read_element_with L pd0 P F ped root = Ok g1 /\ glif_xml_with L P F dbg g1 = Ok e /\
    read_element L pd0 P pedantry_default e = Ok g2 /\ glyph_restored (reduced F g) g2.
Proof.
  intros L PD PL pd0 P F ped dbg root g HL H Hok. exists (reduced F g).
  destruct (C24_glyph_restored L PD PL pd0 P dbg (reduced F g) HL Hok) as (e & g2 & E1 & E2 & E3). exists e, g2. split; [now apply read_reduced|].
  split; [|now split]. rewrite write_reduced, <- E1. f_equal. unfold reduced. cbn. destruct (f_image F); reflexivity.
Qed.
Print Assumptions C112_opened_and_saved.

(** C112: writing and reading in such a build restores a glyph, without images or lib. *)
Theorem C112_restored : forall (L : numlib) (PD PL : Type) (pd0 : PD) (P : plistlib PL) F dbg (g : glif PD PL),
  (forall f, f32_of_iof (iof_of_f32 L f) = f) -> glyph_ok L P g ->
  exists e g', glif_xml_with L P F dbg g = Ok e /\ read_element_with L pd0 P F pedantry_default e = Ok g' /\ glyph_restored (reduced F g) g'.
Proof.
  intros L PD PL pd0 P F dbg g HL Hok.
  destruct (C24_glyph_restored L PD PL pd0 P dbg (reduced (mkFeatures (f_image F) true) g) HL (reduced_ok _ _ _ _ Hok)) as (e & g2 & E1 & E2 & E3). exists e, (reduced F g2).
  split; [now rewrite write_reduced|]. split; [now apply read_reduced|].
  destruct E3 as (R1 & R2 & R3 & R4 & R5 & R6 & R7 & R8 & R9 & R10). unfold glyph_restored, reduced in *. cbn in *.
  repeat (split; [assumption|]). split; [destruct (f_image F); [assumption|constructor]|]. split; [assumption|].
  split; [destruct (f_serde F); [assumption|reflexivity]|]. exact R10.
Qed.
Print Assumptions C112_restored.

(** C112: so opening and saving in a build without serde, or without images, loses what the file
    had, without an error. *)
Theorem C112_kept_refuted : exists (root : element) (g : glif unit unit), read_element rust_num tt no_plist pedantry_default root = Ok g /\
  g_images g <> [] /\ g_lib g <> LNone /\
  (exists g1 e g2, read_element_with rust_num tt no_plist (mkFeatures true false) pedantry_default root = Ok g1 /\
    glif_xml_with rust_num no_plist (mkFeatures true false) true g1 = Ok e /\ read_element rust_num tt no_plist pedantry_default e = Ok g2 /\ g_lib g2 = LNone) /\
  (exists g1 e g2, read_element_with rust_num tt no_plist (mkFeatures false true) pedantry_default root = Ok g1 /\
    glif_xml_with rust_num no_plist (mkFeatures false true) true g1 = Ok e /\ read_element rust_num tt no_plist pedantry_default e = Ok g2 /\ g_images g2 = []).
Proof.
  destruct (C24_glyph_restored rust_num unit unit tt no_plist true ex_glyph (proj1 C24_rust_numbers) ex_glyph_ok) as (root & g & W & R & _).
  exists root, g. assert (glyph_ok rust_num no_plist ex_glyph) as OK by exact ex_glyph_ok.
  vm_compute in W. injection W as <-. vm_compute in R. injection R as <-. split; [vm_compute; reflexivity|]. split; [discriminate|]. split; [discriminate|].
  split; eexists; eexists; eexists; (split; [vm_compute; reflexivity|]); (split; [vm_compute; reflexivity|]); (split; [vm_compute; reflexivity|]); reflexivity.
Qed.
Print Assumptions C112_kept_refuted.

(** The hypotheses are met: the glyph of C24 in every build; and a faulty image is not noticed. *)
Example C112_case : forall F, glyph_ok rust_num no_plist (reduced F ex_glyph) /\ reduced F (reduced F ex_glyph) = reduced F ex_glyph.
Proof. intros F. split; [apply reduced_ok, ex_glyph_ok|]. unfold reduced. cbn. destruct (f_image F), (f_serde F); reflexivity. Qed.
Example C112_case_faulty : let root := Element (lit "glyph") [(lit "name", lit "A"); (lit "format", lit "2")] [NElem (Element (lit "image") [] [])] in
  read_element rust_num tt no_plist pedantry_default root = Err (EInput "<image> missing fileName") /\
  exists g, read_element_with rust_num tt no_plist (mkFeatures false true) pedantry_default root = Ok g.
Proof. split; [vm_compute; reflexivity|]. eexists. vm_compute. reflexivity. Qed.
