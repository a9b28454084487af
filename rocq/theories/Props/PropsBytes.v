(** Property C109: the bytes of the file, all of them or some of them. *)
Require Import Coq.Strings.String Coq.Lists.List Coq.Arith.Arith Coq.NArith.NArith Coq.ZArith.ZArith Coq.Bool.Bool Coq.Floats.SpecFloat Coq.micromega.Lia.
Require Import Verif.Model.Base Verif.Model.Text Verif.Model.Float Verif.Model.Num Verif.Model.RustNum Verif.Model.Point
  Verif.Model.Names Verif.Model.Pedantry Verif.Model.Color Verif.Model.Xml Verif.Model.XmlText Verif.Model.Utf8 Verif.Model.Parts Verif.Model.Read Verif.Model.Write Verif.Model.Component Verif.Model.Interop
  Verif.Spec.NumSpec Verif.Spec.OutlineSpec Verif.Spec.GlyphSpec Verif.Spec.InteropSpec Verif.Spec.FontSpec Verif.Spec.XmlTextSpec Verif.Spec.GrammarSpec Verif.Spec.BytesSpec
  Verif.Facts.NamesFacts Verif.Facts.GlyphFacts Verif.Facts.XmlTextFacts Verif.Facts.XmlGlyphFacts Verif.Facts.GrammarFacts Verif.Facts.BytesFacts
  Verif.Props.PropsGlyph Verif.Props.PropsInterop Verif.Props.PropsFont Verif.Props.PropsXml Verif.Props.PropsSpelling.
Import ListNotations.
Local Open Scope nat_scope.

(** Bytes are read as the text they are in UTF-8, if they are UTF-8; the bytes of a text are its UTF-8. *)
Theorem C109_decoded : forall b t, utf8_decode b = Some t <-> utf8 t b.
Proof. exact decode_iff. Qed.
Theorem C109_encoded : forall t, Forall scalar t -> forall b, utf8 t b <-> b = utf8_encode t.
Proof. intros t H b. rewrite utf8_iff. tauto. Qed.

(** A document cut short is none, or says the same. *)
Theorem C109_cut_document : forall p r e e', document (p ++ r) e -> document p e' -> e' = e.
Proof. intros p r e e' H H'. apply parse_document in H, H'. eapply parse_prefix; eassumption. Qed.

Section C109.
Context (L : numlib) {PD PL : Type} (pd0 : PD) (P : plistlib PL) (dbg : bool).
Local Notation load disk fn := (read_from_filename L pd0 P str (texts_of disk) parse_xml pedantry_default fn).
Local Notation written g := (write_text L P dbg print_bytes g).

Lemma load_inv disk fn : match load disk fn with
  | Ok g => exists b t e g0, disk fn = Some b /\ utf8_decode b = Some t /\ parse_xml t = Some e /\ read_element L pd0 P pedantry_default e = Ok g0
  | _ => True end.
Proof.
  destruct (load disk fn) as [g| |] eqn:E; try exact I. unfold read_from_filename, texts_of in E. destruct (disk fn) as [b|]; [|discriminate].
  destruct (utf8_decode b) as [t|] eqn:D; [|discriminate]. cbn [ok_or bind] in E. destruct (parse_xml t) as [e|] eqn:X; [|discriminate]. cbn [ok_or bind] in E.
  destruct (read_element L pd0 P pedantry_default e) as [g0| |] eqn:R; try discriminate. now exists b, t, e, g0.
Qed.

(** A file that is not there is not taken for an empty one. *)
Theorem C109_missing : forall disk fn, disk fn = None -> load disk fn = Err EFileIo.
Proof. intros disk fn H. unfold read_from_filename, texts_of. now rewrite H. Qed.
(** Bytes that are not UTF-8 are reported like a file that cannot be read. *)
Theorem C109_not_utf8 : forall disk fn b, disk fn = Some b -> (forall t, ~ utf8 t b) -> load disk fn = Err EFileIo.
Proof.
  intros disk fn b H N. unfold read_from_filename, texts_of. rewrite H. destruct (utf8_decode b) as [t|] eqn:D; [|reflexivity]. now apply decode_iff, N in D.
Qed.

(** Whatever file is loaded: of its beginning, the same is loaded or nothing. *)
Theorem C109_cut : forall disk disk' fn b r g, disk fn = Some (b ++ r) -> disk' fn = Some b -> load disk fn = Ok g ->
  load disk' fn = Ok g \/ load disk' fn = Err EFileIo \/ load disk' fn = Err EXmlParse.
Proof.
  intros disk disk' fn b r g H H' E. pose proof (load_inv disk fn) as I. rewrite E in I. destruct I as (b0 & t & e & g0 & I1 & I2 & I3 & _). rewrite H in I1. injection I1 as <-.
  unfold read_from_filename, texts_of in *. rewrite H, I2 in E. cbn [ok_or bind] in E. rewrite I3 in E. cbn [ok_or bind] in E. rewrite H'.
  destruct (utf8_decode b) as [p|] eqn:D; [|now right; left]. cbn [ok_or bind]. destruct (parse_xml p) as [e'|] eqn:X; [|now right; right]. cbn [ok_or bind].
  destruct (decode_prefix b r t p I2 D) as (s & -> & _). rewrite (parse_prefix p s e e' I3 X). now left.
Qed.

Context (HN : carried_numbers L).

(** What is written, cut short anywhere, is not loaded: no byte of it is superfluous. *)
Theorem C109_cut_written : forall (g : glif PD PL) disk fn b r, carried_glyph P g -> written g = Ok (b ++ r) -> r <> [] -> disk fn = Some b ->
  load disk fn = Err EFileIo \/ load disk fn = Err EXmlParse.
Proof.
  intros g disk fn b r Hc H Hr Hd. unfold write_text in H. destruct (glif_xml L P dbg g) as [e| |] eqn:E; try discriminate. cbn [bind] in H.
  destruct (glif_carried L pd0 P dbg HN g e E Hc) as (He & _). destruct (parse_print e He) as (t & Ht & Hp). unfold print_bytes in H. rewrite Ht in H. cbn [ok_or] in H.
  assert (utf8_encode t = b ++ r) as Hb by (now injection H). clear H.
  assert (utf8_decode (b ++ r) = Some t) as D by (rewrite <- Hb; apply decode_encode, parsed_scalars with (e := unblank e); exact Hp).
  unfold read_from_filename, texts_of. rewrite Hd. destruct (utf8_decode b) as [p|] eqn:Dp; [|now left]. right. cbn [ok_or bind].
  destruct (decode_prefix b r t p D Dp) as (s & -> & Ds). rewrite (written_prefix e p s He Ht); [reflexivity|].
  intros ->. apply decode_iff, utf8_iff in Ds as [_ ->]. now apply Hr.
Qed.

Context (HL : forall f, f32_of_iof (iof_of_f32 L f) = f).

Definition parse_bytes (b : list N) : option element := match utf8_decode b with Some t => parse_xml t | None => None end.
Lemma load_bytes disk fn g : read_from_filename L pd0 P (list N) disk parse_bytes pedantry_default fn = Ok g -> load disk fn = Ok g.
Proof.
  unfold read_from_filename, texts_of, parse_bytes. destruct (disk fn) as [b|]; [|discriminate]. cbn [ok_or bind]. destruct (utf8_decode b) as [t|]; [|discriminate]. auto.
Qed.
Lemma bytes_alike (h : glif PD PL) e b : carried_glyph P h -> ~ blank_note h -> glif_xml L P dbg h = Ok e -> print_bytes e = Some b ->
  exists e', parse_bytes b = Some e' /\ glyph_alike e e'.
Proof.
  intros Hc Hb He Hp. destruct (glif_carried L pd0 P dbg HN h e He Hc) as (Hce & Hu & _). destruct (parse_print e Hce) as (t & Ht & Hpt). rewrite (Hu Hb) in Hpt.
  unfold print_bytes in Hp. rewrite Ht in Hp. assert (utf8_encode t = b) as <- by (now injection Hp). exists e. split; [|apply alike_same_children; reflexivity].
  unfold parse_bytes. rewrite decode_encode; [exact Hpt|]. now apply parsed_scalars with (e := e).
Qed.

(** A font saved glyph by glyph as bytes is loaded glyph by glyph. *)
Theorem C109_font : forall steps interrupted (dir : path) (gs : list (glif PD PL)) disk disk',
  font gs -> Forall (glyph_ok L P) gs -> (forall g, In g gs -> carried_glyph P g /\ ~ blank_note g) ->
  history L P dbg print_bytes steps interrupted disk (map (fun g => Saved (home dir (g_name g)) g) gs) disk' ->
  forall g, In g gs -> exists g', load disk' (home dir (g_name g)) = Ok g' /\ glyph_restored g g'.
Proof.
  intros steps interrupted dir gs disk disk' Hf Hok Hc H g Hg.
  destruct (C99_font_restored L pd0 P dbg parse_bytes print_bytes steps interrupted dir gs disk disk' HL Hf Hok) with (g := g) as (g' & H1 & H2 & _); [|exact H|exact Hg|].
  - intros h e b Hh He Hb. destruct (Hc h Hh) as [C1 C2]. now apply bytes_alike with (h := h).
  - exists g'. split; [now apply load_bytes|exact H2].
Qed.

(** A save that is stopped at any moment, or fails half-way, where the file then holds some of the
    bytes to be written: what was in the file is still there, or the new glyph is, or loading says
    that something is wrong.  No other glyph is ever loaded. *)
Theorem C109_stopped : forall steps interrupted disk (g : glif PD PL) fn disk',
  glyph_ok L P g -> carried_glyph P g -> ~ blank_note g -> (forall b c, In c (steps b) -> exists r, b = c ++ r) ->
  (exists k, disk' = write_crashed L P dbg print_bytes steps disk g fn k) \/ (exists e, write_to_filename L P dbg print_bytes steps interrupted disk g fn = (Err e, disk')) ->
  disk' fn = disk fn \/ (load disk' fn = Err EFileIo \/ load disk' fn = Err EXmlParse) \/ (exists g', load disk' fn = Ok g' /\ glyph_restored g g').
Proof.
  intros steps interrupted disk g fn disk' Hok Hc Hb Hs HD.
  destruct (C24_glyph_restored L PD PL pd0 P dbg g HL Hok) as (e & g0 & H1 & _ & _). destruct (glif_carried L pd0 P dbg HN g e H1 Hc) as (He & _).
  destruct (parse_print e He) as (t & Ht & _). assert (written g = Ok (utf8_encode t)) as HW by (unfold write_text; rewrite H1; cbn [bind]; unfold print_bytes; now rewrite Ht).
  destruct (C67_interrupted L P dbg print_bytes steps interrupted disk g fn _ HW) as [A B].
  assert (disk' fn = disk fn \/ exists c, In c (steps (utf8_encode t)) /\ disk' fn = Some c) as [D|(c & I & D)].
  { destruct HD as [(k & ->)|(er & E)]; [apply A|now apply (B er)]. }
  { now left. }
  right. apply Hs in I as (r & Hr). destruct r as [|x r].
  - right. rewrite app_nil_r in Hr. subst c.
    destruct (C99_last_saved_is_loaded L pd0 P dbg parse_bytes print_bytes steps (fun _ _ => None) (fun _ => None) [] fn g [] (set_file (fun _ => None) fn (utf8_encode t)) HL Hok)
      as (g' & L1 & L2 & _).
    + intros e1 b E1 E2. now apply bytes_alike with (h := g).
    + cbn [app]. change [Saved fn g] with ([] ++ [Saved fn g])%list. eapply and_then; [constructor|]. constructor. unfold write_to_filename. rewrite HW. reflexivity.
    + intros h [].
    + exists g'. split; [|exact L2]. apply load_bytes. rewrite <- L1. unfold read_from_filename. rewrite D. unfold set_file.
      destruct (list_eq_dec (list_eq_dec N.eq_dec) fn fn); [reflexivity|congruence].
  - left. rewrite Hr in HW. now apply (C109_cut_written g disk' fn c (x :: r)).
Qed.
End C109.
Print Assumptions C109_decoded.
Print Assumptions C109_encoded.
Print Assumptions C109_cut_document.
Print Assumptions C109_missing.
Print Assumptions C109_not_utf8.
Print Assumptions C109_cut.
Print Assumptions C109_cut_written.
Print Assumptions C109_font.
Print Assumptions C109_stopped.

(** ** Cases *)
(** The cuts in the middle of a character and in the middle of the text. *)
Definition appending_bytes (b : list N) : list (list N) := map (fun k => firstn k b) (seq 0 (S (List.length b))).
Example C109_steps : forall b c, In c (appending_bytes b) -> exists r, b = (c ++ r)%list.
Proof. intros b c H. apply in_map_iff in H as (k & <- & _). exists (skipn k b). symmetry. apply firstn_skipn. Qed.
Example C109_case : glyph_ok rust_num no_plist (ex_quoted quoted) /\ carried_glyph no_plist (ex_quoted quoted) /\ ~ blank_note (ex_quoted quoted).
Proof.
  split; [exact ex_glyph_ok|]. split; [apply ex_quoted_carried, decided_text; vm_compute; reflexivity|].
  intros (s & [= <-] & H). specialize (H 97%N (or_introl eq_refl)). unfold blank in H. lia.
Qed.
Example C109_utf8_case : utf8_encode [65; 233; 8364; 128512]%N = [65; 195; 169; 226; 130; 172; 240; 159; 152; 128]%N /\
  utf8_decode [65; 195; 169; 226; 130; 172; 240; 159; 152; 128]%N = Some [65; 233; 8364; 128512]%N.
Proof. split; reflexivity. Qed.
(** Too long, a surrogate, too great, cut short, a byte astray. *)
Example C109_not_utf8_case : Forall (fun b => forall t, ~ utf8 t b) [[192; 175]; [224; 128; 175]; [237; 160; 128]; [244; 144; 128; 128]; [226; 130]; [128]; [255]]%N.
Proof. repeat (constructor; [intros t H; apply decode_iff in H; discriminate|]). constructor. Qed.
(** Blanks and comments after the element may be missing. *)
Example C109_cut_case : parse_xml (lit "<a><b/></a><!-- -->") = Some (Element (lit "a") [] [NElem (Element (lit "b") [] [])]) /\
  parse_xml (lit "<a><b/></a>") = Some (Element (lit "a") [] [NElem (Element (lit "b") [] [])]) /\ parse_xml (lit "<a><b/></a") = None /\ parse_xml (lit "<a><b/></a><!--") = None.
Proof. repeat split; vm_compute; reflexivity. Qed.
(** The new file after two steps: one byte. *)
Example C109_stopped_case : exists k, write_crashed rust_num no_plist false print_bytes appending_bytes (fun _ => None) (ex_quoted quoted) [lit "A_.glif"] k [lit "A_.glif"] = Some [60%N].
Proof. exists 2. vm_compute. reflexivity. Qed.
