(** Property C110: saving again what was saved. *)
Require Import Coq.Strings.String Coq.Lists.List Coq.Arith.Arith Coq.NArith.NArith Coq.ZArith.ZArith Coq.Bool.Bool Coq.Floats.SpecFloat Coq.micromega.Lia.
Require Import Verif.Model.Base Verif.Model.Text Verif.Model.Float Verif.Model.Num Verif.Model.RustNum Verif.Model.Point
  Verif.Model.Names Verif.Model.Pedantry Verif.Model.Color Verif.Model.Xml Verif.Model.XmlText Verif.Model.Utf8 Verif.Model.Parts Verif.Model.Read Verif.Model.Write Verif.Model.Interop
  Verif.Spec.NumSpec Verif.Spec.OutlineSpec Verif.Spec.GlyphSpec Verif.Spec.DocumentSpec Verif.Spec.OpenSpec Verif.Spec.XmlTextSpec Verif.Spec.AgainSpec
  Verif.Facts.RustNumFacts Verif.Facts.GlyphFacts Verif.Facts.XmlTextFacts Verif.Facts.XmlGlyphFacts Verif.Facts.BytesFacts Verif.Facts.WrittenFacts Verif.Facts.DocumentFacts Verif.Facts.OpenFacts Verif.Facts.AgainFacts
  Verif.Props.PropsGlyph Verif.Props.PropsXml.
Import ListNotations.
Local Open Scope nat_scope.

Section C110.
Context (L : numlib) {PD PL : Type} (pd0 : PD) (P : plistlib PL) (dbg : bool).
Context (HL : forall f, f32_of_iof (iof_of_f32 L f) = f).
Local Notation opened e := (read_element (PD := PD) L pd0 P pedantry_default e).
Local Notation written g := (glif_xml L P dbg g).
Local Notation resaved := (saved_again (PD := PD) L pd0 P dbg).
Local Notation resaved_times := (saved_times (PD := PD) L pd0 P dbg).

(** What was written is opened and written again: the document is the same exactly if no contour
    starts and ends with curves between points that differ. *)
Theorem C110_same_exactly : forall (g : glif PD PL) e, glyph_ok L P g -> (forall i, In i (free_numbers g) -> settled L i) -> written g = Ok e ->
  exists g' e', opened e = Ok g' /\ written g' = Ok e' /\ (e' = e <-> forall c, In c (contours g) -> ~ wandering c).
Proof.
  intros g e Hok Hs He. destruct (C24_glyph_restored L PD PL pd0 P dbg g HL Hok) as (e0 & g' & H1 & H2 & _). rewrite He in H1. injection H1 as <-.
  destruct (glyph_again L pd0 P dbg HL g e g' Hok Hs He H2) as (e' & H3 & H4). exists g', e'. auto.
Qed.

(** Then it stays the same however often it is opened and saved. *)
Theorem C110_forever : forall (g : glif PD PL) e k e', glyph_ok L P g -> (forall i, In i (free_numbers g) -> settled L i) -> written g = Ok e ->
  (forall c, In c (contours g) -> ~ wandering c) -> resaved_times k e e' -> e' = e.
Proof.
  intros g e k e' Hok Hs He Hw. apply saved_forever. destruct (C110_same_exactly g e Hok Hs He) as (g' & e1 & H1 & H2 & H3). exists g'. split; [exact H1|]. rewrite H2. f_equal. now apply H3.
Qed.

(** Contours with a line, and open ones, come to rest after as many saves as they have points, or
    earlier; contours of curves only never do, unless all their points are alike. *)
Theorem C110_settles : forall (g : glif PD PL) e n, glyph_ok L P g -> (forall i, In i (free_numbers g) -> settled L i) -> written g = Ok e ->
  (forall c, In c (contours g) -> length c <= n) -> (forall c, In c (contours g) -> partly_straight c) ->
  exists k e', k <= n /\ resaved_times k e e' /\ resaved e' e' /\ forall j e'', resaved_times j e' e'' -> e'' = e'.
Proof.
  intros g e n Hok Hs He Hn Hc. destruct (glyph_settles L pd0 P dbg HL n g e Hok Hs) as (k & e' & H1 & H2 & H3); [|exact He|].
  - intros c Hin. left. split; [now apply Hc|]. etransitivity; [apply dist_length, straight_types, Hc, Hin|]. rewrite map_length. now apply Hn.
  - exists k, e'. split; [exact H1|]. split; [exact H2|]. split; [exact H3|]. intros j e''. now apply saved_forever.
Qed.
Theorem C110_settles_exactly : forall (g : glif PD PL) e, glyph_ok L P g -> (forall i, In i (free_numbers g) -> settled L i) -> written g = Ok e ->
  (exists k e', resaved_times k e e' /\ resaved e' e') <-> (forall c, In c (contours g) -> partly_straight c \/ ~ wandering c).
Proof.
  intros g e Hok Hs He. split.
  - intros (k & e' & T & A) c Hin. destruct (curves_only_dec c) as [H|H]; [now left|]. right. intros Hw. revert A. eapply glyph_unsettled; [exact HL|exact Hok|exact Hs| |exact He|exact T].
    exists c. split; [exact Hin|]. split; [|exact Hw]. intros (p & Hp & X). apply X, H, Hp.
  - intros Hc. destruct (glyph_settles L pd0 P dbg HL (list_max (map (@length _) (contours g))) g e Hok Hs) as (k & e' & _ & H2 & H3); [|exact He|exists k, e'; auto].
    intros c Hin. destruct (curves_only_dec c) as [H|H]; [left|right].
    + split; [exact H|]. etransitivity; [apply dist_length, straight_types, H|]. rewrite map_length.
      pose proof (proj1 (list_max_le (map (@length _) (contours g)) _) (le_n _)) as X. rewrite Forall_forall in X. apply X, in_map, Hin.
    + apply not_wandering_calm; [exact H|]. destruct (Hc c Hin) as [(p & Hp & X)|X]; [|exact X]. exfalso. apply X, H, Hp.
Qed.

(** ** The bytes of the file *)
Context (HN : carried_numbers L).
Local Notation bytes g := (write_text L P dbg print_bytes g).
Local Notation load disk fn := (read_from_filename L pd0 P str (texts_of disk) parse_xml pedantry_default fn).

Lemma carried_restored (g g' : glif PD PL) : glyph_ok L P g -> glyph_restored g g' -> carried_glyph P g -> carried_glyph P g' /\ (blank_note g' <-> blank_note g).
Proof.
  intros Hok (R1 & R2 & R3 & R4 & R5 & R6 & R7 & R8 & R9 & R10) (C1 & C2 & C3 & C4 & C5 & C6 & C7 & C8). pose proof Hok as (_ & _ & _ & _ & _ & _ & _ & Ho).
  assert (forall A B (Q : A -> Prop) (R : A -> B -> Prop) (Q' : B -> Prop) l l', (forall x y, Q x -> R x y -> Q' y) -> Forall2 R l l' -> Forall Q l -> Forall Q' l') as F.
  { intros A B Q R Q' l l' H F. induction F as [|x y l l' HR _ IH]; intros HQ; [constructor|]. inversion_clear HQ. constructor; eauto. }
  split; [|unfold blank_note; now rewrite R8]. unfold carried_glyph. rewrite R1, R8. split; [exact C1|].
  split; [eapply F; [|exact R4|exact C2]; intros x y X (_ & _ & E & _); now rewrite E|].
  split; [eapply F; [|exact R5|exact C3]; intros x y X (_ & _ & _ & E1 & _ & E2); now rewrite E1, E2|].
  split; [eapply F; [|exact R6|exact C4]; intros x y X (E1 & _ & E2); now rewrite E1, E2|].
  split; [eapply F; [|exact R7|exact C5]; intros x y X (E1 & _ & E2); now rewrite E1, E2|].
  split.
  { clear -R10 C6 Ho. induction R10 as [|c c' l l' Hr _ IH]; [constructor|]. inversion_clear C6 as [|? ? H1 H2]. inversion_clear Ho as [|? ? H3 H4]. constructor; [|auto].
    destruct (restored_from c c' (proj1 H3) Hr) as (z & m & -> & _ & _ & _ & HX). apply Forall_forall. intros x Hx. apply in_restore in Hx as (y & y' & Hy & ->). cbn.
    rewrite Forall_forall in H1. apply H1. destruct HX as [(p & t & -> & _ & -> & ->)|(p & t & -> & _ & ->)]; [exact Hy|]. apply in_app_iff. cbn in *. tauto. }
  split; [exact C7|]. unfold carried_lib, lib_restored in *. destruct (g_lib g) as [|d|x], (g_lib g') as [|d'|x']; try tauto.
  - subst d'. exact C8.
  - intros e [H|(? & H & _)]; [|discriminate]. injection H as <-. rewrite <- R9. apply C8. now left.
Qed.

(** A saved file that is loaded and saved again holds the same bytes exactly if no contour starts and
    ends with curves between points that differ. *)
Theorem C110_bytes_exactly : forall (g : glif PD PL) disk fn b, glyph_ok L P g -> (forall i, In i (free_numbers g) -> settled L i) ->
  carried_glyph P g -> ~ blank_note g -> bytes g = Ok b -> disk fn = Some b ->
  exists g' b', load disk fn = Ok g' /\ bytes g' = Ok b' /\ (b' = b <-> forall c, In c (contours g) -> ~ wandering c).
Proof.
  intros g disk fn b Hok Hs Hc Hb Hw Hd. unfold write_text in Hw. destruct (glif_xml L P dbg g) as [e| |] eqn:He; try discriminate. cbn [bind] in Hw.
  assert (forall (h : glif PD PL) e', carried_glyph P h -> ~ blank_note h -> glif_xml L P dbg h = Ok e' -> exists t, print_xml e' = Some t /\ parse_xml t = Some e' /\ utf8_decode (utf8_encode t) = Some t) as HP.
  { intros h e' H1 H2 H3. destruct (glif_carried L pd0 P dbg HN h e' H3 H1) as (H4 & H5 & _). destruct (parse_print e' H4) as (t & Ht & Hp). rewrite (H5 H2) in Hp. exists t. split; [exact Ht|]. split; [exact Hp|].
    apply decode_encode, parsed_scalars with (e := e'). exact Hp. }
  destruct (HP g e Hc Hb He) as (t & Ht & Hp & Hde). unfold print_bytes in Hw. rewrite Ht in Hw. cbn [ok_or] in Hw. assert (utf8_encode t = b) as <- by (now injection Hw). clear Hw.
  destruct (C24_glyph_restored L PD PL pd0 P dbg g HL Hok) as (e0 & g0 & H1 & H2 & HR). rewrite He in H1. injection H1 as <-.
  destruct (glyph_again L pd0 P dbg HL g e g0 Hok Hs He H2) as (e' & He' & HX). destruct (carried_restored g g0 Hok HR Hc) as [Hc0 Hb0].
  destruct (HP g0 e' Hc0 (fun X => Hb (proj1 Hb0 X)) He') as (t' & Ht' & Hp' & Hde').
  assert (exists g', load disk fn = Ok g' /\ found_in fn g0 g') as (g' & Hl & Hf).
  { eexists. split; [apply read_file_is|apply found_in_is; reflexivity]. exists t, e, g0. split; [unfold texts_of; now rewrite Hd|]. split; [exact Hp|]. split; [now apply read_element_says|]. apply found_in_is. reflexivity. }
  exists g', (utf8_encode t'). split; [exact Hl|]. split.
  - unfold write_text. rewrite (found_written L P dbg fn g0 g' Hf), He'. cbn [bind]. unfold print_bytes. now rewrite Ht'.
  - rewrite <- HX. split; [|intros ->; congruence]. intros E. rewrite E, Hde in Hde'. injection Hde' as ->. congruence.
Qed.
End C110.
Print Assumptions C110_same_exactly.
Print Assumptions C110_forever.
Print Assumptions C110_settles.
Print Assumptions C110_settles_exactly.
Print Assumptions C110_bytes_exactly.

(** Rust's numbers are settled, other than minus zero. *)
Theorem C110_rust_numbers : forall i, iof_ok i -> settled rust_num i.
Proof. exact rust_settled. Qed.
Theorem C110_minus_zero_refuted : ~ settled rust_num (IFloat (S754_zero true)).
Proof. intros H. specialize (H (IInt 0)). vm_compute in H. specialize (H eq_refl). discriminate. Qed.
(** Whatever document of lines and cubic curves was opened, whoever wrote it, and saved: the next time
    around the file is the same exactly if no contour starts and ends with curves between points that differ. *)
Theorem C110_opened : forall (PD PL : Type) (pd0 : PD) (P : plistlib PL) (dbg : bool) (ped : pedantry) (root : element) (g : glif PD PL),
  read_element rust_num pd0 P ped root = Ok g ->
  (forall ce, In ce (contours_in root) -> plain_contour ce) -> lib_ok P (g_lib g) -> no_minus_zero g ->
  exists e g' e', glif_xml rust_num P dbg g = Ok e /\ read_element rust_num pd0 P pedantry_default e = Ok g' /\ glif_xml rust_num P dbg g' = Ok e' /\
    (e' = e <-> forall c, In c (contours g) -> ~ wandering c).
Proof.
  intros PD PL pd0 P dbg ped root g H Hp Hl Hz. pose proof (opened_ok pd0 P ped root g H Hp Hl Hz) as Hok.
  destruct (C24_glyph_restored rust_num PD PL pd0 P dbg g (proj1 C24_rust_numbers) Hok) as (e & g0 & H1 & _ & _).
  destruct (C110_same_exactly rust_num pd0 P dbg (proj1 C24_rust_numbers) g e Hok) as (g' & e' & H2 & H3 & H4); [|exact H1|exists e, g', e'; auto].
  intros i Hi. apply rust_settled. eapply opened_numbers; eassumption.
Qed.
Print Assumptions C110_rust_numbers.
Print Assumptions C110_minus_zero_refuted.
Print Assumptions C110_opened.

(** ** Cases *)
Definition curves_only : list (point unit) :=
  [mkPoint (fl "0") (fl "0") (At (fl "0") (fl "50")) (At (fl "50") (fl "0")) None Curve false None;
   mkPoint (fl "100") (fl "100") (At (fl "100") (fl "50")) (At (fl "50") (fl "100")) None Curve false None].
Definition glyph_of (c : list (point unit)) : glif unit unit := mkGlif (Some [c]) [] components_default [] [] (Some 500%N) [65]%N (lit "A") None None LNone.
(** C110 as stated is false: a contour of two curves. *)
Theorem C110_refuted : exists (e e' : element), glif_xml rust_num no_plist false (glyph_of curves_only) = Ok e /\
  saved_again (PD := unit) rust_num tt no_plist false e e' /\ e' <> e.
Proof.
  eexists. eexists. split; [vm_compute; reflexivity|]. split; [eexists; split; [vm_compute; reflexivity|vm_compute; reflexivity]|]. intros X. vm_compute in X. discriminate.
Qed.
Print Assumptions C110_refuted.

Lemma ex_numbers i : In i (free_numbers ex_glyph) -> settled rust_num i.
Proof.
  intros Hi. apply rust_settled. vm_compute in Hi. repeat (destruct Hi as [<-|Hi]; [cbn; (lia || (split; [reflexivity|discriminate]))|]). destruct Hi.
Qed.
(** The glyph with one of everything has a contour that starts with a curve and ends with a line. *)
Example C110_case : glyph_ok rust_num no_plist (ex_quoted quoted) /\ (forall i, In i (free_numbers (ex_quoted quoted)) -> settled rust_num i) /\
  carried_glyph no_plist (ex_quoted quoted) /\ ~ blank_note (ex_quoted quoted) /\
  (forall c, In c (contours (ex_quoted quoted)) -> ~ wandering c) /\ forall c, In c (contours (ex_quoted quoted)) -> partly_straight c.
Proof.
  split; [exact ex_glyph_ok|]. split; [exact ex_numbers|]. split; [apply ex_quoted_carried, decided_text; vm_compute; reflexivity|].
  split; [intros (s & [= <-] & H); specialize (H 97%N (or_introl eq_refl)); unfold blank in H; lia|]. split.
  - intros c [<-|[]] (p & m & q & E & _ & Hq & _). destruct m as [|x [|y m]]; cbn in E; [|discriminate|discriminate]. injection E as <- <-. discriminate.
  - intros c [<-|[]]. eexists. split; [right; left; reflexivity|discriminate].
Qed.
Example C110_wandering_case : wandering curves_only /\ ~ partly_straight curves_only.
Proof.
  split.
  - eexists _, [], _. split; [reflexivity|]. split; [reflexivity|]. split; [reflexivity|]. eexists _, _. split; [left; reflexivity|]. split; [right; left; reflexivity|]. vm_compute. discriminate.
  - intros (p & [<-|[<-|[]]] & H); now apply H.
Qed.
