(** Property C98: what was opened can be saved, and what was saved can be opened again. *)
Require Import Coq.Strings.String Coq.Lists.List Coq.Arith.Arith Coq.NArith.NArith Coq.ZArith.ZArith Coq.Bool.Bool Coq.Floats.SpecFloat Coq.micromega.Lia.
Require Import Verif.Model.Base Verif.Model.Text Verif.Model.Float Verif.Model.Num Verif.Model.RustNum Verif.Model.Point Verif.Model.Contour
  Verif.Model.Create Verif.Model.Conv Verif.Model.Strings Verif.Model.Names Verif.Model.Pedantry Verif.Model.Color Verif.Model.Xml
  Verif.Model.Parts Verif.Model.Read Verif.Model.Write
  Verif.Spec.TextSpec Verif.Spec.NumSpec Verif.Spec.ContourSpec Verif.Spec.OutlineSpec Verif.Spec.GlyphSpec Verif.Spec.DocumentSpec
  Verif.Spec.OpenSpec Verif.Facts.GlyphFacts Verif.Facts.OpenFacts
  Verif.Props.PropsOutline Verif.Props.PropsGlyph Verif.Props.PropsDocument.
Import ListNotations.
Local Open Scope string_scope.
Local Open Scope list_scope.
Local Open Scope nat_scope.

(** C98: saving an opened glyph never gives an error; it panics exactly if some contour of the
    document starts with a `qcurve` point and ends in a control point. *)
Theorem C98_which_can_be_saved : forall (L : numlib) (PD PL : Type) (pd0 : PD) (P : plistlib PL) (dbg : bool) (ped : pedantry)
  (root : element) (g : glif PD PL),
  read_element L pd0 P ped root = Ok g ->
  (glif_xml L P dbg g = Panic <-> exists ce, In ce (contours_in root) /\ loose_end ce) /\
  (~ (exists ce, In ce (contours_in root) /\ loose_end ce) -> exists e, glif_xml L P dbg g = Ok e).
Proof.
  intros L PD PL pd0 P dbg ped root g H. destruct (which_saved L pd0 P dbg ped root g H) as [[A B]|[A (e & B)]].
  - split; [tauto|]. intros X. contradiction.
  - split; [|eauto]. split; [intros X; congruence|]. intros X. contradiction.
Qed.
Print Assumptions C98_which_can_be_saved.

(** C22 for whole glyphs, whatever made them: writing panics exactly if a contour has no point on the
    curve or a point of a type that does not exist in files, in either build, and never gives an error. *)
Theorem C22_glyph_exact : forall (L : numlib) (PD PL : Type) (P : plistlib PL) (dbg : bool) (g : glif PD PL),
  (glif_xml L P dbg g = Panic <->
    exists c, In c (contours g) /\
      ((forall p, In p c -> pptype p = OffCurve) \/ (exists p, In p c /\ (pptype p = Undefined \/ pptype p = QClose)))) /\
  (glif_xml L P dbg g <> Panic -> exists e, glif_xml L P dbg g = Ok e).
Proof.
  intros L PD PL P dbg g. destruct (glif_xml_exact L P dbg g) as [[A B]|[A (e & B)]].
  - split; [tauto|contradiction].
  - split; [|eauto]. split; [intros X; congruence|contradiction].
Qed.
Print Assumptions C22_glyph_exact.

(** A smooth point off the curve among others is left out, not an error; alone it makes writing panic. *)
Example C22_glyph_case : let off := mkPoint pos_zero pos_zero Colocated Colocated None OffCurve true None in
  let on := mkPoint pos_zero pos_zero Colocated Colocated None Line false None in
  let g c := mkGlif (Some [c]) [] components_default [] [] None [] [] None None LNone in
  (exists e, glif_xml rust_num no_plist true (g [on; off] : glif unit unit) = Ok e) /\ glif_xml rust_num no_plist true (g [off] : glif unit unit) = Panic.
Proof. split; [eexists; vm_compute; reflexivity|vm_compute; reflexivity]. Qed.

(** A quadratic contour that ends in a control point. *)
Definition loose_doc : element :=
  el "glyph" [("name", "O"); ("format", "2")]
    [el "outline" []
      [el "contour" [] [el "point" [("x", "0"); ("y", "0"); ("type", "qcurve")] [];
                        el "point" [("x", "10"); ("y", "0")] []; el "point" [("x", "10"); ("y", "10")] []]]]%string.
(** C98 as stated is false: a document can be opened and then makes saving panic. *)
Theorem C98_saved_again_refuted : exists g : glif unit unit,
  read_element rust_num tt no_plist pedantry_default loose_doc = Ok g /\ glif_xml rust_num no_plist false g = Panic.
Proof. eexists. split; [vm_compute; reflexivity|vm_compute; reflexivity]. Qed.
Print Assumptions C98_saved_again_refuted.

(** C98: what was opened from a document of lines and cubic curves is saved, and opening what was
    saved restores it. *)
Theorem C98_restored : forall (PD PL : Type) (pd0 : PD) (P : plistlib PL) (dbg : bool) (ped : pedantry) (root : element) (g : glif PD PL),
  read_element rust_num pd0 P ped root = Ok g ->
  (forall ce, In ce (contours_in root) -> plain_contour ce) -> lib_ok P (g_lib g) -> no_minus_zero g ->
  exists e g', glif_xml rust_num P dbg g = Ok e /\ read_element rust_num pd0 P pedantry_default e = Ok g' /\ glyph_restored g g'.
Proof.
  intros PD PL pd0 P dbg ped root g H Hp Hl Hz. apply C24_glyph_restored; [exact (proj1 C24_rust_numbers)|].
  eapply opened_ok; eassumption.
Qed.
Print Assumptions C98_restored.

(** C98: if its contours are written out in full, none of them changes. *)
Theorem C98_contours_kept : forall (PD PL : Type) (pd0 : PD) (P : plistlib PL) (dbg : bool) (ped : pedantry) (root : element) (g : glif PD PL),
  read_element rust_num pd0 P ped root = Ok g ->
  (forall ce, In ce (contours_in root) -> complete_contour ce) -> lib_ok P (g_lib g) -> no_minus_zero g ->
  exists e g', glif_xml rust_num P dbg g = Ok e /\ read_element rust_num pd0 P pedantry_default e = Ok g' /\
    Forall2 kept_whole (contours g) (contours g').
Proof.
  intros PD PL pd0 P dbg ped root g H Hp Hl Hz.
  destruct (C98_restored PD PL pd0 P dbg ped root g H) as (e & g' & H1 & H2 & H3); [|exact Hl|exact Hz|].
  { intros ce Hce. apply complete_plain. now apply Hp. }
  exists e, g'. split; [exact H1|]. split; [exact H2|]. destruct H3 as (_ & _ & _ & _ & _ & _ & _ & _ & _ & H3).
  destruct (contours_read rust_num pd0 P ped root g H) as [Hc _].
  assert (forall c, In c (contours g) -> exists ce, complete_contour ce /\ read_from_element rust_num ce c) as Hc'.
  { intros c Hin. destruct (Hc c Hin) as (ce & Hce & Hr). eauto. }
  clear - H3 Hc'. induction H3 as [|c c' l l' Hr _ IH]; constructor.
  - destruct (Hc' c (or_introl eq_refl)) as (ce & A & B). eapply kept_exactly; eassumption.
  - apply IH. intros x Hx. apply Hc'. now right.
Qed.
Print Assumptions C98_contours_kept.

Example C98_case : exists g : glif unit unit, read_element rust_num tt no_plist pedantry_default ex_doc = Ok g /\
  (forall ce, In ce (contours_in ex_doc) -> complete_contour ce) /\ lib_ok no_plist (g_lib g) /\ no_minus_zero g /\
  length (contours g) = 1 /\ length (numbers g) > 20.
Proof.
  eexists. split; [vm_compute; reflexivity|]. split.
  { intros ce [<-|[<-|[]]].
    - exists [Line; OffCurve; OffCurve; Curve]. split.
      + assert (type_named None OffCurve) as H by (constructor; discriminate).
        repeat (apply Forall2_cons; [exact names_line || exact names_curve || exact H|]). apply Forall2_nil.
      + right; right. exists Line, [OffCurve; OffCurve; Curve]. split; [reflexivity|]. split; [discriminate|]. apply a_curve, a_line, no_piece.
    - exists []. split; [apply Forall2_nil|now left]. }
  split; [exact I|]. split; [|split; [reflexivity|apply Nat.leb_le; vm_compute; reflexivity]].
  intros H. vm_compute in H. repeat (destruct H as [H|H]; [discriminate H|]). exact H.
Qed.

(** C23: what is written for a contour starting with a `qcurve` point cannot be read again, unless
    the contour also ends with one; then it can be read, but what is read cannot be written. *)
Theorem C23_second_time_exact : forall (L : numlib) (PD : Type) (dbg : bool) (fuel : nat) (g : glifpoint) (t : list glifpoint)
  (c : contour PD) (gps : list glifpoint),
  gptype g = QCurve -> (forall x, In x (g :: t) -> gptype x <> Undefined /\ gptype x <> QClose) ->
  contour_of_glif L (g :: t) = Ok c -> 1 <= fuel -> into_glifpoints L dbg fuel c = Some (Ok gps) ->
  (gptype (last t g) <> QCurve -> contour_of_glif (PD:=PD) L gps = Panic) /\
  (gptype (last t g) = QCurve -> exists c', contour_of_glif (PD:=PD) L gps = Ok c' /\
     forall dbg' fuel', 1 <= fuel' -> into_glifpoints L dbg' fuel' c' = Some Panic).
Proof.
  intros L PD dbg fuel g t c gps Hg Hall Hc Hf Hw. destruct fuel as [|f]; [lia|].
  destruct (quad_second L f dbg g t c gps Hg Hall Hc Hw) as [A B]. split; [exact A|]. intros H. destruct (B H) as (c' & B1 & B2).
  exists c'. split; [exact B1|]. intros dbg' fuel' Hf'. destruct fuel' as [|f']; [lia|]. apply B2.
Qed.
Print Assumptions C23_second_time_exact.

(** Both cases occur. *)
Example C23_second_line : exists (c : contour unit) gps,
  contour_of_glif rust_num [gpt 0 0 QCurve; gpt 10 20 OffCurve; gpt 50 50 Line] = Ok c /\
  into_glifpoints rust_num false 1 c = Some (Ok gps) /\ contour_of_glif (PD:=unit) rust_num gps = Panic.
Proof. do 2 eexists. split; [vm_compute; reflexivity|]. split; [vm_compute; reflexivity|vm_compute; reflexivity]. Qed.
Example C23_second_qcurve : exists (c : contour unit) gps c',
  contour_of_glif rust_num [gpt 0 0 QCurve; gpt 10 20 OffCurve; gpt 100 0 QCurve] = Ok c /\
  into_glifpoints rust_num false 1 c = Some (Ok gps) /\ contour_of_glif (PD:=unit) rust_num gps = Ok c' /\
  into_glifpoints rust_num false 1 c' = Some Panic.
Proof. do 3 eexists. split; [vm_compute; reflexivity|]. split; [vm_compute; reflexivity|]. split; [vm_compute; reflexivity|vm_compute; reflexivity]. Qed.

(** C98: a document with a contour starting with a `qcurve` point survives one round at most: if it
    was opened, saved and opened again, it cannot be saved again. *)
Theorem C98_quadratic_once : forall (L : numlib) (PD PL : Type) (pd0 : PD) (P : plistlib PL) (dbg dbg' : bool) (ped ped' : pedantry)
  (root e : element) (g g' : glif PD PL),
  (exists ce, In ce (contours_in root) /\ starts_quadratic ce) ->
  read_element L pd0 P ped root = Ok g -> glif_xml L P dbg g = Ok e ->
  read_element L pd0 P ped' e = Ok g' -> glif_xml L P dbg' g' = Panic.
Proof. intros L PD PL pd0 P dbg dbg' ped ped' root e g g' Hq H1 H2 H3. exact (quadratic_once L pd0 P ped ped' dbg dbg' root g g' e H1 Hq H2 H3). Qed.
Print Assumptions C98_quadratic_once.

Definition quad_doc : element :=
  el "glyph" [("name", "O"); ("format", "2")]
    [el "outline" [] [el "contour" [] [el "point" [("x", "0"); ("y", "0"); ("type", "qcurve")] []; el "point" [("x", "50"); ("y", "50")] [];
      el "point" [("x", "100"); ("y", "0"); ("type", "qcurve")] []]]].
Example C98_quadratic_case : exists (e : element) (g g' : glif unit unit),
  (exists ce, In ce (contours_in quad_doc) /\ starts_quadratic ce) /\
  read_element rust_num tt no_plist pedantry_default quad_doc = Ok g /\ glif_xml rust_num no_plist false g = Ok e /\
  read_element rust_num tt no_plist pedantry_default e = Ok g' /\ glif_xml rust_num no_plist false g' = Panic.
Proof.
  do 3 eexists. split; [eexists; split; [left; reflexivity|do 2 eexists; split; reflexivity]|].
  split; [vm_compute; reflexivity|]. split; [vm_compute; reflexivity|]. split; [vm_compute; reflexivity|vm_compute; reflexivity].
Qed.
