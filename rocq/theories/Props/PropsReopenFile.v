(** C98: how often the bytes of a file can be opened and saved. *)
Require Import Coq.Strings.String Coq.Lists.List Coq.Arith.Arith Coq.NArith.NArith Coq.ZArith.ZArith Coq.Bool.Bool Coq.Floats.SpecFloat Coq.micromega.Lia.
Require Import Verif.Model.Base Verif.Model.Text Verif.Model.Float Verif.Model.Num Verif.Model.RustNum Verif.Model.Point Verif.Model.Names Verif.Model.Pedantry
  Verif.Model.Color Verif.Model.Xml Verif.Model.XmlText Verif.Model.Plist Verif.Model.Utf8 Verif.Model.Parts Verif.Model.Read Verif.Model.Write Verif.Model.Interop
  Verif.Spec.TextSpec Verif.Spec.GlyphSpec Verif.Spec.DocumentSpec Verif.Spec.OpenSpec Verif.Spec.XmlTextSpec Verif.Spec.PlistSpec Verif.Spec.GrammarSpec Verif.Spec.BytesSpec
  Verif.Spec.FileSpec Verif.Spec.ZeroSpec Verif.Spec.RestSpec Verif.Spec.ReopenSpec
  Verif.Facts.RustNumFacts Verif.Facts.XmlTextFacts Verif.Facts.XmlGlyphFacts Verif.Facts.BytesFacts Verif.Facts.WrittenFacts Verif.Facts.DocumentFacts Verif.Facts.OpenFacts
  Verif.Facts.AgainFacts Verif.Facts.PlistFacts Verif.Facts.GrammarFacts Verif.Facts.FileFacts Verif.Facts.ZeroFacts Verif.Facts.ReopenFacts Verif.Facts.ReopenFileFacts
  Verif.Props.PropsGlyph Verif.Props.PropsOpen Verif.Props.PropsXml Verif.Props.PropsPlist Verif.Props.PropsBytes Verif.Props.PropsFile Verif.Props.PropsZero Verif.Props.PropsZeroFile Verif.Props.PropsRest
  Verif.Props.PropsRestFile Verif.Props.PropsReopen.
Import ListNotations.
Local Open Scope list_scope.

Section C98.
Context {X : Type} (Sc : scalars X) {PD : Type} (pd0 : PD) (dbg : bool) (HS : faithful_scalars Sc) (fn : path).
Local Notation P := (xml_plist Sc).
Local Notation load b := (read_from_filename rust_num pd0 P str (texts_of (fun _ => Some b)) parse_xml pedantry_default fn).
Local Notation bytes g := (write_text rust_num P dbg print_bytes g).
Local Notation read root := (read_element rust_num pd0 P pedantry_default root).
Local Notation glyph := (glif PD (list (str * pvalue X))).

Definition holds (b : list N) (root : element) : Prop :=
  forall g' : glyph, load b = Ok g' <-> exists h : glyph, read root = Ok h /\ found_in fn h g'.
Lemma holds_text b t root root' : utf8_decode b = Some t -> parse_xml t = Some root -> (forall ped, read_element (PD := PD) rust_num pd0 P ped root = read_element rust_num pd0 P ped root') -> holds b root'.
Proof.
  intros Hd Hp E g'. rewrite read_file_is. split.
  - intros (t2 & r2 & h & A1 & A2 & A3 & A4). unfold texts_of in A1. rewrite Hd in A1. injection A1 as <-. rewrite Hp in A2. injection A2 as <-.
    exists h. split; [rewrite <- E; now apply read_element_says|exact A4].
  - intros (h & H1 & H2). exists t, root, h. split; [exact Hd|]. split; [exact Hp|]. split; [apply read_element_says; now rewrite E|exact H2].
Qed.

Lemma saved_holds (g0 : glyph) e : carried_glyph P g0 -> glif_xml rust_num P dbg g0 = Ok e ->
  exists b' (k : glyph) ek, (forall g, found_in fn g0 g -> bytes g = Ok b') /\ (k = g0 \/ k = noteless g0) /\ glif_xml rust_num P dbg k = Ok ek /\ carried ek /\ holds b' ek.
Proof.
  intros Hca He. destruct (glif_carried rust_num pd0 P dbg C106_numbers g0 e He Hca) as (H1 & H2 & H3). destruct (parse_print e H1) as (t & Ht & Hpr).
  assert (utf8_decode (utf8_encode t) = Some t) as Hde by (apply decode_encode, parsed_scalars with (e := unblank e); exact Hpr).
  assert (forall g, found_in fn g0 g -> bytes g = Ok (utf8_encode t)) as Hb.
  { intros g Hf. unfold write_text. rewrite (found_written rust_num P dbg fn g0 g Hf), He. cbn [bind]. unfold print_bytes. now rewrite Ht. }
  assert (blank_note g0 \/ ~ blank_note g0) as [B|B].
  { unfold blank_note. destruct (g_note g0) as [s|]; [|right; intros (s & E & _); discriminate]. destruct (blankb s) eqn:E; [left; exists s; split; [reflexivity|now apply blankb_iff]|].
    right. intros (s' & E' & B). injection E' as <-. apply (proj2 (blankb_iff s)) in B. congruence. }
  - destruct (H3 B) as (e1 & E1 & E2). exists (utf8_encode t), (noteless g0), e1. split; [exact Hb|]. split; [now right|]. split; [exact E1|]. split; [|exact (holds_text _ t _ e1 Hde Hpr E2)].
    assert (carried_glyph P (noteless g0)) as Hn.
    { destruct Hca as (C1 & C2 & C3 & C4 & C5 & C6 & C7 & C8). unfold carried_glyph. repeat (split; [assumption|]). split; [intros s X'; discriminate X'|exact C8]. }
    exact (proj1 (glif_carried rust_num pd0 P dbg C106_numbers (noteless g0) e1 E1 Hn)).
  - exists (utf8_encode t), g0, e. split; [exact Hb|]. split; [now left|]. split; [exact He|]. split; [exact H1|]. apply (holds_text _ t _ e Hde Hpr). intros ped. now rewrite (H2 B).
Qed.
Lemma found_some (g0 : glyph) : exists g, found_in fn g0 g.
Proof. eexists. apply found_in_is. reflexivity. Qed.

Lemma lives_on n : forall b root (g0 : glyph), holds b root -> read root = Ok g0 -> lib_ok P (g_lib g0) -> carried_glyph P g0 ->
  ~ (exists ce, In ce (contours_in root) /\ starts_quadratic ce) -> lives Sc pd0 dbg fn n b.
Proof.
  induction n as [|n IH]; intros b root g0 Hh H Hl Hca N; [exact I|].
  assert (~ exists ce, In ce (contours_in root) /\ one_sided ce) as N1 by (intros (ce & Hce & f & t & E & E' & _); apply N; exists ce; split; [exact Hce|now exists f, t]).
  destruct (which_saved rust_num pd0 P dbg pedantry_default root g0 H) as [[(ce & Hce & f & t & E & E' & _) _]|[_ (e & He)]]; [exfalso; apply N; exists ce; split; [exact Hce|now exists f, t]|].
  destruct (saved_holds g0 e Hca He) as (b' & k & ek & Hb & Hk & Hek & Hce & Hh'). destruct (found_some g0) as (g & Hf).
  exists g, b'. split; [apply Hh; exists g0; auto|]. split; [now apply Hb|].
  destruct (contours_read rust_num pd0 P pedantry_default root g0 H) as [C1 C2]. pose proof (opened_rest pd0 P pedantry_default root g0 H Hl) as Hok.
  assert (contours k = contours g0 /\ glyph_ok rust_num P (without_contours (plus_zeros k)) /\ g_lib k = g_lib g0) as (Ec & Hok' & El) by (destruct Hk as [->| ->]; auto).
  rewrite <- Ec in C1, C2. rewrite <- El in Hl.
  destruct (reopened_any pd0 P dbg (contours_in root) k ek C1 C2 Hok' Hl Hek) as [[A _]|[_ (h & Rh & Lh & Lr & Sh)]]; [contradiction|].
  apply (IH b' ek h Hh' Rh Lh); [|intros A; now apply N, Sh]. apply (tree_carried rust_num pd0 P pedantry_default ek h Hce Rh).
  rewrite El in Lr. apply (lib_carried_again P (g_lib g0)); [exact Lr|apply Hca].
Qed.

Lemma contours_panic (g g' : glyph) : contours g = contours g' -> glif_xml rust_num P dbg g = Panic -> glif_xml rust_num P dbg g' = Panic.
Proof. intros E H. apply (proj1 (C22_glyph_exact rust_num PD _ P dbg g')). rewrite <- E. now apply (proj1 (C22_glyph_exact rust_num PD _ P dbg g)). Qed.

Lemma dies b root (g0 : glyph) : holds b root -> read root = Ok g0 -> lib_ok P (g_lib g0) -> carried_glyph P g0 ->
  (exists ce, In ce (contours_in root) /\ starts_quadratic ce) -> ~ lives Sc pd0 dbg fn 2 b.
Proof.
  intros Hh H Hl Hca Hq (g & b1 & L1 & B1 & g' & b2 & L2 & B2 & _).
  apply Hh in L1 as (h0 & R0 & F0). assert (h0 = g0) as -> by congruence.
  unfold write_text in B1. rewrite (found_written rust_num P dbg fn g0 g F0) in B1. destruct (glif_xml rust_num P dbg g0) as [e| |] eqn:He; try discriminate.
  destruct (saved_holds g0 e Hca He) as (b' & k & ek & Hb & Hk & Hek & _ & Hh'). specialize (Hb g F0). unfold write_text in Hb. rewrite (found_written rust_num P dbg fn g0 g F0), He in Hb.
  assert (b' = b1) as -> by congruence. apply Hh' in L2 as (h & Rh & Fh).
  assert (glif_xml rust_num P dbg h = Panic) as Hp.
  2:{ unfold write_text in B2. rewrite (found_written rust_num P dbg fn h g' Fh), Hp in B2. discriminate. }
  destruct Hk as [->| ->].
  { rewrite He in Hek. injection Hek as <-. exact (quadratic_once rust_num pd0 P pedantry_default pedantry_default dbg dbg root g0 h e H Hq He Rh). }
  pose proof (opened_rest pd0 P pedantry_default root g0 H Hl) as Hok.
  destruct (proj1 (C118_no_difference PD _ pd0 P dbg g0) e He) as (ep & Hep & Rp).
  destruct (proj1 (C118_no_difference PD _ pd0 P dbg (noteless g0)) ek Hek) as (kp & Hkp & Rkp).
  pose proof (C119_independent rust_num PD _ pd0 P dbg (plus_zeros g0) (proj1 C24_rust_numbers) Hok) as Y1.
  pose proof (C119_independent rust_num PD _ pd0 P dbg (plus_zeros (noteless g0)) (proj1 C24_rust_numbers) Hok) as Y2.
  change (only_contours (plus_zeros (noteless g0))) with (only_contours (plus_zeros g0)) in Y2.
  destruct (glif_xml rust_num P dbg (only_contours (plus_zeros g0))) as [e1| |]; [|congruence|congruence].
  destruct Y1 as (ep' & Ep & Y1). rewrite Hep in Ep. injection Ep as <-. destruct Y2 as (kp' & Ek & Y2). rewrite Hkp in Ek. injection Ek as <-.
  rewrite <- Rp in Y1. rewrite <- Rkp, Rh in Y2.
  destruct (read_element rust_num pd0 P pedantry_default e1) as [g1| |]; [|discriminate|discriminate].
  destruct Y1 as (g2 & Rg2 & _ & E2). destruct Y2 as (h2 & Eh2 & _ & E3). injection Eh2 as <-.
  apply (contours_panic g2 h); [congruence|]. exact (quadratic_once rust_num pd0 P pedantry_default pedantry_default dbg dbg root g0 g2 e H Hq He Rg2).
Qed.

(** C98: the bytes of a file that was opened can be saved exactly if no contour starts with a `qcurve` point and
    ends in a control point, and opened and saved any number of times exactly if no contour starts with a `qcurve`
    point, and not even twice otherwise. *)
Theorem C98_file_how_often : forall b root (g : glyph), file_says b root -> load b = Ok g -> lasting_texts g ->
  (lives Sc pd0 dbg fn 1 b <-> ~ exists ce, In ce (contours_in root) /\ loose_end ce) /\
  (forall n, 2 <= n -> (lives Sc pd0 dbg fn n b <-> ~ exists ce, In ce (contours_in root) /\ starts_quadratic ce)).
Proof.
  intros b root g Hf Hl Ht. destruct (opened_from Sc pd0 (fun _ => Some b) fn b root g Hf eq_refl Hl) as (g0 & H0 & Hfo & Hc).
  destruct (found_same fn g0 g Hfo) as (_ & _ & F3 & _). specialize (F3 Ht).
  pose proof (opened_lib Sc pd0 rust_num pedantry_default root g0 Hc H0 HS (proj2 (proj2 F3))) as Hlib.
  assert (lib_ok P (g_lib g0) /\ carried_lib P (g_lib g0)) as [K1 K2].
  { destruct (g_lib g0) as [|d|x]; [| |contradiction].
    - split; [exact I|]. intros e [E|(d & E & _)]; discriminate.
    - destruct Hlib as (W1 & W2 & W3 & W4 & W5). now apply C108_restored. }
  assert (carried_glyph P g0) as Hca by (now apply (opened_carried_any Sc pd0 rust_num pedantry_default root g0)).
  assert (holds b root) as Hh.
  { destruct Hf as (t & Hu & Hd). apply decode_iff in Hu. apply parse_document in Hd. exact (holds_text b t root root Hu Hd (fun _ => eq_refl)). }
  split.
  - destruct (which_saved rust_num pd0 P dbg pedantry_default root g0 H0) as [[A B]|[A (e & B)]]; (split; [|intros N]).
    + intros (g1 & b1 & L1 & B1 & _). exfalso. unfold write_text in B1. assert (g1 = g) as -> by congruence. rewrite (found_written rust_num P dbg fn g0 g Hfo), B in B1. discriminate.
    + contradiction.
    + intros _. exact A.
    + destruct (saved_holds g0 e Hca B) as (b' & k & ek & Hb & _). exists g, b'. split; [exact Hl|]. split; [now apply Hb|exact I].
  - intros n Hn. split.
    + intros Hlive Hq. apply (dies b root g0 Hh H0 K1 Hca Hq). destruct n as [|[|n]]; try lia.
      destruct Hlive as (g1 & b1 & L1 & B1 & g2 & b2 & L2 & B2 & _). exists g1, b1. split; [exact L1|]. split; [exact B1|]. exists g2, b2. split; [exact L2|]. split; [exact B2|exact I].
    + intros N. exact (lives_on n b root g0 Hh H0 K1 Hca N).
Qed.
End C98.
Print Assumptions C98_file_how_often.

(** A file whose note is blank and a contour of which has a `move` in its middle. *)
Definition moves_file : str :=
  lit "<?xml version='1.0'?><glyph format='2' name=""A""><note>&#32;</note><outline><contour><point x='0' y='-0.0' type='line'/><point x='5' y='7' type='move' name='n'/><point x='9' y='9' type='curve'/></contour><component base='B'/></outline></glyph>".
Lemma case_says (file : str) root :
  parse_xml file = Some root -> file_says (utf8_encode file) root.
Proof. intros E. exists file. split; [apply decode_iff, decode_encode, parsed_scalars with (e := root); exact E|now apply parse_document]. Qed.
Example C98_file_case : (forall n, lives (PD := unit) reals tt false [lit "a.glif"] n (utf8_encode moves_file)) /\
  lives (PD := unit) reals tt false [lit "a.glif"] 1 (utf8_encode quadratic_file) /\ ~ lives (PD := unit) reals tt false [lit "a.glif"] 2 (utf8_encode quadratic_file).
Proof.
  split.
  - destruct (parse_xml moves_file) as [root|] eqn:E; [|vm_compute in E; discriminate].
    destruct (read_from_filename rust_num tt (xml_plist reals) str (texts_of (fun _ => Some (utf8_encode moves_file))) parse_xml pedantry_default [lit "a.glif"]) as [g| |] eqn:L; [|vm_compute in L; discriminate|vm_compute in L; discriminate].
    assert (lasting_texts g) as Ht.
    { clear E root. vm_compute in L. injection L as <-. split; [|split].
      - intros s H. vm_compute in H. repeat (destruct H as [<-|H]; [intros Q; vm_compute in Q; repeat (destruct Q as [Q|Q]; [discriminate Q|]); exact Q|]). destruct H.
      - intros s E Q. cbn in E. try discriminate E. injection E as <-. vm_compute in Q. repeat (destruct Q as [Q|Q]; [discriminate Q|]). exact Q.
      - intros s (d & Q & _). discriminate Q. }
    destruct (C98_file_how_often reals tt false C116_reals [lit "a.glif"] _ root g (case_says moves_file root E) L Ht) as [H1 H2].
    assert (~ exists ce, In ce (contours_in root) /\ starts_quadratic ce) as N.
    { clear -E. vm_compute in E. injection E as <-. intros (ce & [<-|[]] & f & t & A & B). vm_compute in A. injection A as <- <-. discriminate B. }
    intros [|[|n]]; [exact I| |apply H2; [lia|exact N]]. apply H1. intros (ce & Hce & f & t & A & B & _). apply N. exists ce. split; [exact Hce|]. now exists f, t.
  - destruct (parse_xml quadratic_file) as [root|] eqn:E; [|vm_compute in E; discriminate].
    destruct (read_from_filename rust_num tt (xml_plist reals) str (texts_of (fun _ => Some (utf8_encode quadratic_file))) parse_xml pedantry_default [lit "a.glif"]) as [g| |] eqn:L; [|vm_compute in L; discriminate|vm_compute in L; discriminate].
    assert (lasting_texts g) as Ht.
    { clear E root. vm_compute in L. injection L as <-. split; [|split].
      - intros s H. vm_compute in H. repeat (destruct H as [<-|H]; [intros Q; vm_compute in Q; repeat (destruct Q as [Q|Q]; [discriminate Q|]); exact Q|]). destruct H.
      - intros s E Q. cbn in E. try discriminate E. injection E as <-. vm_compute in Q. repeat (destruct Q as [Q|Q]; [discriminate Q|]). exact Q.
      - intros s (d & Q & _). discriminate Q. }
    destruct (C98_file_how_often reals tt false C116_reals [lit "a.glif"] _ root g (case_says quadratic_file root E) L Ht) as [H1 H2]. split.
    + do 2 eexists. split; [vm_compute; reflexivity|]. split; [vm_compute; reflexivity|exact I].
    + rewrite (H2 2 (le_n 2)). intros N. apply N. clear -E. vm_compute in E. injection E as <-. eexists. split; [left; reflexivity|]. do 2 eexists. split; vm_compute; reflexivity.
Qed.
