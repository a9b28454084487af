(** C118: the minus sign of a zero. *)
Require Import Coq.Strings.String Coq.Lists.List Coq.NArith.NArith Coq.ZArith.ZArith Coq.Floats.SpecFloat.
Require Import Verif.Model.Base Verif.Model.Text Verif.Model.Float Verif.Model.Num Verif.Model.RustNum Verif.Model.Point Verif.Model.Contour
  Verif.Model.Names Verif.Model.Pedantry Verif.Model.Color Verif.Model.Xml Verif.Model.Parts Verif.Model.Read Verif.Model.Write
  Verif.Spec.OutlineSpec Verif.Spec.GlyphSpec Verif.Spec.DocumentSpec Verif.Spec.OpenSpec Verif.Spec.AgainSpec Verif.Spec.ZeroSpec
  Verif.Facts.OpenFacts Verif.Facts.AgainFacts Verif.Facts.ZeroFacts Verif.Props.PropsGlyph Verif.Props.PropsDocument Verif.Props.PropsOpen Verif.Props.PropsAgain.
Import ListNotations.
Local Open Scope string_scope.
Local Open Scope list_scope.

(** C118: a glyph is saved exactly if it is without its minus signs before zeros, and then
    the same glyph is read from what was saved. *)
Theorem C118_no_difference : forall (PD PL : Type) (pd0 : PD) (P : plistlib PL) (dbg : bool) (g : glif PD PL),
  (forall e, glif_xml rust_num P dbg g = Ok e -> exists e', glif_xml rust_num P dbg (plus_zeros g) = Ok e' /\
     forall ped, read_element rust_num pd0 P ped e = read_element rust_num pd0 P ped e') /\
  (forall er, glif_xml rust_num P dbg g = Err er <-> glif_xml rust_num P dbg (plus_zeros g) = Err er) /\
  (glif_xml rust_num P dbg g = Panic <-> glif_xml rust_num P dbg (plus_zeros g) = Panic).
Proof.
  intros PD PL pd0 P dbg g. pose proof (fun ped => rust_glyph_plus pd0 P dbg ped g) as H.
  destruct (H pedantry_default) as [(e' & e & E' & E & _)|[[-> ->]|(er & -> & ->)]].
  - rewrite E, E'. split; [|split; [intros er; split; discriminate|split; discriminate]].
    intros e0 X. injection X as <-. exists e'. split; [reflexivity|]. intros ped.
    destruct (H ped) as [(f' & f & F' & F & R)|[[F' _]|(er & F' & _)]]; congruence.
  - split; [discriminate|]. split; [intros er; split; discriminate|tauto].
  - split; [discriminate|]. split; [tauto|split; discriminate].
Qed.
Print Assumptions C118_no_difference.

(** C118: whatever was opened from a document of lines and cubic curves is saved, and opening what
    was saved restores it, without minus signs before zeros. *)
Theorem C118_restored : forall (PD PL : Type) (pd0 : PD) (P : plistlib PL) (dbg : bool) (ped : pedantry) (root : element) (g : glif PD PL),
  read_element rust_num pd0 P ped root = Ok g ->
  (forall ce, In ce (contours_in root) -> plain_contour ce) -> lib_ok P (g_lib g) ->
  exists e g', glif_xml rust_num P dbg g = Ok e /\ read_element rust_num pd0 P pedantry_default e = Ok g' /\ glyph_restored (plus_zeros g) g'.
Proof.
  intros PD PL pd0 P dbg ped root g H Hp Hl. pose proof (opened_plus pd0 P ped root g H Hp Hl) as Hok.
  destruct (C24_glyph_restored rust_num PD PL pd0 P dbg (plus_zeros g) (proj1 C24_rust_numbers) Hok) as (e' & g' & E & R & S).
  destruct (rust_glyph_plus pd0 P dbg pedantry_default g) as [(f' & f & F' & F & X)|[[F' _]|(er & F' & _)]]; [|congruence|congruence].
  exists f, g'. split; [exact F|]. split; [|exact S]. rewrite <- X. congruence.
Qed.
Print Assumptions C118_restored.

(** C118: if its contours are written out in full, nothing else changes in them. *)
Theorem C118_contours_kept : forall (PD PL : Type) (pd0 : PD) (P : plistlib PL) (dbg : bool) (ped : pedantry) (root : element) (g : glif PD PL),
  read_element rust_num pd0 P ped root = Ok g ->
  (forall ce, In ce (contours_in root) -> complete_contour ce) -> lib_ok P (g_lib g) ->
  exists e g', glif_xml rust_num P dbg g = Ok e /\ read_element rust_num pd0 P pedantry_default e = Ok g' /\
    Forall2 kept_whole (contours (plus_zeros g)) (contours g').
Proof.
  intros PD PL pd0 P dbg ped root g H Hp Hl.
  destruct (C118_restored PD PL pd0 P dbg ped root g H) as (e & g' & H1 & H2 & H3); [|exact Hl|].
  { intros ce Hce. apply complete_plain. now apply Hp. }
  exists e, g'. split; [exact H1|]. split; [exact H2|]. destruct H3 as (_ & _ & _ & _ & _ & _ & _ & _ & _ & H3).
  destruct (contours_read rust_num pd0 P ped root g H) as [Hc _].
  assert (forall c, In c (contours g) -> exists ce, complete_contour ce /\ read_from_element rust_num ce c) as Hc'.
  { intros c Hin. destruct (Hc c Hin) as (ce & Hce & Hr). eauto. }
  assert (contours (plus_zeros g) = map (map plus_point) (contours g)) as E by (unfold contours; cbn [plus_zeros g_outline]; now destruct (g_outline g)).
  rewrite E in *. clear - H3 Hc'. revert H3. generalize (contours g'). induction (contours g) as [|c l IH]; intros m F; inversion_clear F as [|? ? ? ? F1 F2]; constructor.
  - destruct (Hc' c (or_introl eq_refl)) as (ce & A & B). eapply kept_plus; eassumption.
  - apply IH; [|assumption]. intros x Hx. apply Hc'. now right.
Qed.
Print Assumptions C118_contours_kept.

(** C118: the signs are lost once: in what was opened from what was saved there are none. From then
    on opening what was saved restores the glyph itself, and saving writes the same document exactly
    if no contour starts and ends with curves between points that differ. *)
Theorem C118_settled : forall (PD PL : Type) (pd0 : PD) (P : plistlib PL) (dbg : bool) (ped : pedantry) (root : element) (g : glif PD PL),
  read_element rust_num pd0 P ped root = Ok g ->
  (forall ce, In ce (contours_in root) -> plain_contour ce) -> lib_ok P (g_lib g) ->
  exists e g' e' g'' e'', glif_xml rust_num P dbg g = Ok e /\ read_element rust_num pd0 P pedantry_default e = Ok g' /\ no_minus_zero g' /\
    glif_xml rust_num P dbg g' = Ok e' /\ read_element rust_num pd0 P pedantry_default e' = Ok g'' /\ glyph_restored g' g'' /\
    glif_xml rust_num P dbg g'' = Ok e'' /\ (e'' = e' <-> forall c, In c (contours g') -> ~ wandering c).
Proof.
  intros PD PL pd0 P dbg ped root g H Hp Hl. pose proof (opened_plus pd0 P ped root g H Hp Hl) as Hok. pose proof (plus_settled pd0 P ped root g H) as Hs.
  destruct (C24_glyph_restored rust_num PD PL pd0 P dbg (plus_zeros g) (proj1 C24_rust_numbers) Hok) as (e' & g' & E & R & S).
  destruct (glyph_read_again rust_num pd0 P dbg (proj1 C24_rust_numbers) _ _ _ Hok Hs E R) as (Hok' & Hs' & _).
  destruct (rust_glyph_plus pd0 P dbg pedantry_default g) as [(f' & f & F' & F & X)|[[F' _]|(er & F' & _)]]; [|congruence|congruence].
  destruct (C24_glyph_restored rust_num PD PL pd0 P dbg g' (proj1 C24_rust_numbers) Hok') as (e1 & g'' & E1 & R1 & S1).
  destruct (C110_same_exactly rust_num pd0 P dbg (proj1 C24_rust_numbers) g' e1 Hok' Hs' E1) as (g2 & e'' & R2 & E2 & Hx).
  rewrite R1 in R2. injection R2 as <-. exists f, g', e1, g'', e''.
  split; [exact F|]. split; [rewrite <- X; congruence|]. split; [|auto 6].
  apply (restored_no_minus (plus_zeros g)); [apply no_minus_plus| |exact S].
  intros Hi. destruct Hok as (_ & _ & _ & _ & _ & _ & _ & Ho). rewrite Forall_forall in Ho. apply Ho in Hi. destruct Hi as ((p & t & Hi & _) & _). discriminate Hi.
Qed.
Print Assumptions C118_settled.

(** C118: without minus zeros that is the glyph itself. *)
Theorem C118_same : forall (PD PL : Type) (g : glif PD PL), no_minus_zero g -> plus_zeros g = g.
Proof. intros PD PL g. exact (plus_zeros_same g). Qed.
Print Assumptions C118_same.

(** A document with minus signs before zeros. *)
Definition ex_signed : element :=
  el "glyph" [("name", "A"); ("format", "2")]
    [el "guideline" [("x", "-0.0"); ("y", "2"); ("angle", "-0.0"); ("color", "1,-0.0,0,1")] [];
     el "outline" []
       [el "contour" [] [el "point" [("x", "-0.0"); ("y", "0"); ("type", "line")] []; el "point" [("x", "10"); ("y", "-0e3"); ("type", "line")] []];
        el "component" [("base", "B"); ("yOffset", "-0.")] []]]%string.
Lemma ex_signed_complete : forall ce, In ce (contours_in ex_signed) -> complete_contour ce.
Proof.
  intros ce [<-|[]]. exists [Line; Line]. split.
  - repeat (apply Forall2_cons; [exact names_line|]). apply Forall2_nil.
  - right; right. exists Line, [Line]. split; [reflexivity|]. split; [discriminate|]. apply a_line, a_line, no_piece.
Qed.
Lemma ex_signed_plain : forall ce, In ce (contours_in ex_signed) -> plain_contour ce.
Proof. intros ce H. now apply complete_plain, ex_signed_complete. Qed.

(** C118: that opening what was saved restores the glyph itself is refuted by such a document: the
    signs are read and written, but not read again. *)
Theorem C118_sign_refuted : exists (g g' : glif unit unit) (e : element),
  read_element rust_num tt no_plist pedantry_default ex_signed = Ok g /\
  glif_xml rust_num no_plist false g = Ok e /\ read_element rust_num tt no_plist pedantry_default e = Ok g' /\
  map (map px) (contours g) = [[S754_zero true; f32_of_Z 10]] /\ map (map px) (contours g') = [[S754_zero false; f32_of_Z 10]] /\
  map gl_x (g_guidelines g') = [S754_zero true].
Proof.
  destruct (read_element rust_num tt no_plist pedantry_default ex_signed) as [g| |] eqn:E; [|vm_compute in E; discriminate|vm_compute in E; discriminate].
  destruct (C118_restored unit unit tt no_plist false pedantry_default ex_signed g E ex_signed_plain) as (e & g' & H1 & H2 & H3).
  { vm_compute in E. injection E as <-. exact I. }
  exists g, g', e. split; [reflexivity|]. split; [exact H1|]. split; [exact H2|]. clear H3.
  vm_compute in E. injection E as <-. vm_compute in H1. injection H1 as <-. vm_compute in H2. injection H2 as <-.
  split; [vm_compute; reflexivity|]. split; vm_compute; reflexivity.
Qed.
Print Assumptions C118_sign_refuted.

Example C118_case : exists g : glif unit unit, read_element rust_num tt no_plist pedantry_default ex_signed = Ok g /\
  (forall ce, In ce (contours_in ex_signed) -> complete_contour ce) /\ (forall ce, In ce (contours_in ex_signed) -> plain_contour ce) /\ lib_ok no_plist (g_lib g) /\ ~ no_minus_zero g /\ plus_zeros g <> g.
Proof.
  eexists. split; [vm_compute; reflexivity|]. split; [exact ex_signed_complete|]. split; [exact ex_signed_plain|]. split; [exact I|]. split.
  - intros H. apply H. vm_compute. tauto.
  - vm_compute. discriminate.
Qed.
Example C118_same_case : exists g : glif unit unit, read_element rust_num tt no_plist pedantry_default ex_doc = Ok g /\ no_minus_zero g.
Proof. destruct C98_case as (g & H & _ & _ & X & _). exists g. split; assumption. Qed.
