(** C119: contours and the rest of a glyph do not disturb each other. *)
Require Import Coq.Strings.String Coq.Lists.List Coq.NArith.NArith Coq.ZArith.ZArith Coq.Floats.SpecFloat.
Require Import Verif.Model.Base Verif.Model.Text Verif.Model.Float Verif.Model.Num Verif.Model.RustNum Verif.Model.Point Verif.Model.Contour
  Verif.Model.Create Verif.Model.Conv Verif.Model.Names Verif.Model.Pedantry Verif.Model.Color Verif.Model.Xml Verif.Model.Parts Verif.Model.Read Verif.Model.Write
  Verif.Spec.OutlineSpec Verif.Spec.GlyphSpec Verif.Spec.DocumentSpec Verif.Spec.OpenSpec Verif.Spec.RestSpec Verif.Spec.ZeroSpec
  Verif.Facts.XmlFacts Verif.Facts.GlyphFacts Verif.Facts.OpenFacts Verif.Facts.AgainFacts Verif.Facts.ZeroFacts Verif.Facts.RestFacts
  Verif.Props.PropsGlyph Verif.Props.PropsDocument Verif.Props.PropsOpen Verif.Props.PropsZero.
Import ListNotations.
Local Open Scope string_scope.
Local Open Scope list_scope.

(** C119: whatever the contours of a glyph: it is saved exactly if its contours alone can be, what was
    saved is opened exactly if they alone are, with the same error if there is one; then the contours
    are those of the contours alone, and everything else is restored. *)
Theorem C119_independent : forall (L : numlib) (PD PL : Type) (pd0 : PD) (P : plistlib PL) (dbg : bool) (g : glif PD PL),
  (forall f, f32_of_iof (iof_of_f32 L f) = f) -> glyph_ok L P (without_contours g) ->
  match glif_xml L P dbg (only_contours g) with
  | Ok e1 => exists e, glif_xml L P dbg g = Ok e /\
      match read_element L pd0 P pedantry_default e1 with
      | Ok g1 => exists g', read_element L pd0 P pedantry_default e = Ok g' /\
                   glyph_restored (without_contours g) (without_contours g') /\ contours g' = contours g1
      | Err er => read_element L pd0 P pedantry_default e = Err er
      | Panic => read_element L pd0 P pedantry_default e = Panic
      end
  | Err er => glif_xml L P dbg g = Err er
  | Panic => glif_xml L P dbg g = Panic
  end.
Proof.
  intros L PD PL pd0 P dbg g HL Hok.
  destruct (glif_xml L P dbg (only_contours g)) as [e1| |] eqn:E1.
  - assert (exists e, glif_xml L P dbg g = Ok e) as (e & E).
    { rewrite glif_xml_children in *. change (contours (only_contours g)) with (contours g) in E1.
      destruct (mapM (contour_xml L dbg) (contours g)); try discriminate. cbn [bind]. eexists. reflexivity. }
    exists e. split; [exact E|].
    assert (contours_in e1 = contours_in e) as Ec.
    { destruct (glif_xml_parts L P dbg _ _ E1) as (c1 & i1 & C1 & _ & _ & _ & Q1 & _).
      destruct (glif_xml_parts L P dbg _ _ E) as (c & i & C & _ & _ & _ & Q & _).
      change (contours (only_contours g)) with (contours g) in C1. congruence. }
    destruct (written_like L P dbg g e E) as (e2 & E2 & A1 & A2 & A3 & A4 & A5).
    destruct (written_like L P dbg _ e1 E1) as (e3 & E3 & B1 & B2 & B3 & B4 & B5).
    destruct (C24_glyph_restored L PD PL pd0 P dbg _ HL Hok) as (e2' & h & F2 & R2 & S2). rewrite E2 in F2. injection F2 as <-.
    assert (glyph_ok L P (without_contours (only_contours g))) as Hok1.
    { repeat split; try (constructor || discriminate). }
    destruct (C24_glyph_restored L PD PL pd0 P dbg _ HL Hok1) as (e3' & h1 & F3 & R3 & S3). rewrite E3 in F3. injection F3 as <-.
    rewrite (read_like L pd0 P pedantry_default e e2 h A1 A2 A3 A4 A5 R2), (read_like L pd0 P pedantry_default e1 e3 h1 B1 B2 B3 B4 B5 R3), Ec.
    destruct (mapM _ (contours_in e)) as [cs| |]; try reflexivity. cbn [bind]. destruct (outline_of_glif L (filter nonempty cs)) as [o| |]; try reflexivity. cbn [bind].
    eexists. split; [reflexivity|]. split.
    + destruct S2 as (T1 & T2 & T3 & T4 & T5 & T6 & T7 & T8 & T9 & _). repeat (split; [assumption|]). constructor.
    + unfold contours. cbn [g_outline]. destruct o; [|reflexivity]. cbn [nonempty orb]. destruct (nonempty _), (nonempty _); reflexivity.
  - rewrite glif_xml_children in *. change (contours (only_contours g)) with (contours g) in E1. destruct (mapM (contour_xml L dbg) (contours g)); try discriminate. cbn [bind] in *. injection E1 as ->. reflexivity.
  - rewrite glif_xml_children in *. change (contours (only_contours g)) with (contours g) in E1. destruct (mapM (contour_xml L dbg) (contours g)); try discriminate. reflexivity.
Qed.
Print Assumptions C119_independent.

Lemma rest_restored (PD PL : Type) (pd0 : PD) (P : plistlib PL) (dbg : bool) (e : element) (g g' : glif PD PL) :
  glyph_ok rust_num P (without_contours (plus_zeros g)) ->
  glif_xml rust_num P dbg g = Ok e -> read_element rust_num pd0 P pedantry_default e = Ok g' ->
  glyph_restored (without_contours (plus_zeros g)) (without_contours g').
Proof.
  intros Hok He R.
  destruct (proj1 (C118_no_difference PD PL pd0 P dbg g) e He) as (e' & He' & X). specialize (X pedantry_default). rewrite R in X. symmetry in X.
  pose proof (C119_independent rust_num PD PL pd0 P dbg (plus_zeros g) (proj1 C24_rust_numbers) Hok) as Y.
  destruct (glif_xml rust_num P dbg (only_contours (plus_zeros g))) as [e1| |]; [|congruence|congruence].
  destruct Y as (e2 & E2 & Y). rewrite He' in E2. injection E2 as <-. rewrite X in Y.
  destruct (read_element rust_num pd0 P pedantry_default e1) as [g1| |]; [|discriminate|discriminate].
  destruct Y as (g2 & E2 & Y & _). injection E2 as <-. exact Y.
Qed.

(** C119: whatever document was opened, with whatever contours: if it was saved and what was saved
    was opened, then everything but the contours is restored, up to the minus signs of zeros. *)
Theorem C119_opened : forall (PD PL : Type) (pd0 : PD) (P : plistlib PL) (dbg : bool) (ped : pedantry) (root e : element) (g g' : glif PD PL),
  read_element rust_num pd0 P ped root = Ok g -> lib_ok P (g_lib g) ->
  glif_xml rust_num P dbg g = Ok e -> read_element rust_num pd0 P pedantry_default e = Ok g' ->
  glyph_restored (without_contours (plus_zeros g)) (without_contours g').
Proof.
  intros PD PL pd0 P dbg ped root e g g' H Hl He R. exact (rest_restored PD PL pd0 P dbg e g g' (opened_rest pd0 P ped root g H Hl) He R).
Qed.
Print Assumptions C119_opened.

(** A document with a quadratic contour and much else. The contour is not restored. *)
Definition ex_quadratic (last : string) : element :=
  el "glyph" [("name", "A"); ("format", "2")]
    [el "advance" [("width", "500")] []; el "unicode" [("hex", "0041")] []; el "anchor" [("x", "1.5"); ("y", "2"); ("name", "top")] [];
     el "guideline" [("x", "-0.0"); ("y", "2"); ("angle", "45"); ("color", "1,0,0,1")] [];
     el "outline" []
       [el "contour" [] [el "point" [("x", "0"); ("y", "0"); ("type", "qcurve")] []; el "point" [("x", "10"); ("y", "20")] [];
                         el "point" [("x", "100"); ("y", "0"); ("type", last)] []];
        el "component" [("base", "B"); ("yOffset", "7")] []]]%string.
Example C119_case : exists (g g' : glif unit unit) (e : element),
  read_element rust_num tt no_plist pedantry_default (ex_quadratic "qcurve") = Ok g /\ lib_ok no_plist (g_lib g) /\
  glif_xml rust_num no_plist false g = Ok e /\ read_element rust_num tt no_plist pedantry_default e = Ok g' /\
  map (map pptype) (contours g) <> map (map pptype) (contours g') /\ glyph_ok rust_num no_plist (without_contours (plus_zeros g)) /\
  length (g_anchors g') = 1 /\ length (g_guidelines g') = 1 /\ length (cs_vec (g_components g')) = 1.
Proof.
  destruct (read_element rust_num tt no_plist pedantry_default (ex_quadratic "qcurve")) as [g| |] eqn:E; [|vm_compute in E; discriminate|vm_compute in E; discriminate].
  pose proof (opened_rest tt no_plist pedantry_default _ g E) as Hok. vm_compute in E. injection E as <-.
  do 3 eexists. split; [reflexivity|]. split; [exact I|]. split; [vm_compute; reflexivity|]. split; [vm_compute; reflexivity|].
  split; [vm_compute; discriminate|]. split; [apply Hok; exact I|]. split; [reflexivity|]. split; reflexivity.
Qed.
(** With a line at its end what was saved makes opening panic. *)
Example C119_panic_case : exists (g : glif unit unit) (e : element),
  read_element rust_num tt no_plist pedantry_default (ex_quadratic "line") = Ok g /\ glif_xml rust_num no_plist false g = Ok e /\
  read_element (PD := unit) (PL := unit) rust_num tt no_plist pedantry_default e = Panic.
Proof. do 2 eexists. split; [vm_compute; reflexivity|]. split; [vm_compute; reflexivity|vm_compute; reflexivity]. Qed.
