(** Property C116: whatever file was opened, saved and opened again. *)
Require Import Coq.Strings.String Coq.Lists.List Coq.Arith.Arith Coq.NArith.NArith Coq.ZArith.ZArith Coq.Bool.Bool Coq.Floats.SpecFloat Coq.micromega.Lia.
Require Import Verif.Model.Base Verif.Model.Text Verif.Model.Float Verif.Model.Num Verif.Model.RustNum Verif.Model.Point Verif.Model.Names Verif.Model.Pedantry
  Verif.Model.Color Verif.Model.Xml Verif.Model.XmlText Verif.Model.Plist Verif.Model.Utf8 Verif.Model.Parts Verif.Model.Read Verif.Model.Write Verif.Model.Interop
  Verif.Spec.TextSpec Verif.Spec.GlyphSpec Verif.Spec.DocumentSpec Verif.Spec.OpenSpec Verif.Spec.XmlTextSpec Verif.Spec.PlistSpec Verif.Spec.GrammarSpec Verif.Spec.BytesSpec
  Verif.Spec.AgainSpec Verif.Spec.FileSpec
  Verif.Facts.RustNumFacts Verif.Facts.XmlTextFacts Verif.Facts.XmlGlyphFacts Verif.Facts.BytesFacts Verif.Facts.WrittenFacts Verif.Facts.DocumentFacts Verif.Facts.OpenFacts
  Verif.Facts.AgainFacts Verif.Facts.PlistFacts Verif.Facts.GrammarFacts Verif.Facts.FileFacts
  Verif.Props.PropsGlyph Verif.Props.PropsXml Verif.Props.PropsPlist Verif.Props.PropsBytes Verif.Props.PropsAgain.
Import ListNotations.
Local Open Scope list_scope.

Section C116.
Context {X : Type} (S : scalars X) {PD : Type} (pd0 : PD) (dbg : bool) (HS : faithful_scalars S).
Local Notation P := (xml_plist S).
Local Notation load disk fn := (read_from_filename rust_num pd0 P str (texts_of disk) parse_xml pedantry_default fn).
Local Notation bytes g := (write_text rust_num P dbg print_bytes g).
Local Notation glyph := (glif PD (list (str * pvalue X))).

(** The glyph opened, and the glyph without the names of files. *)
Lemma opened_from disk fn b root (g : glyph) : file_says b root -> disk fn = Some b -> load disk fn = Ok g ->
  exists g0, read_element rust_num pd0 P pedantry_default root = Ok g0 /\ found_in fn g0 g /\ chars_in root.
Proof.
  intros (t & Hu & Hd) Hb Hl. apply read_file_is in Hl as (t' & root' & g0 & H1 & H2 & H3 & H4). unfold texts_of in H1. rewrite Hb in H1. apply decode_iff in Hu. rewrite Hu in H1. injection H1 as <-.
  pose proof (document_chars t root Hd) as Hc. apply parse_document in Hd. rewrite Hd in H2. injection H2 as <-. exists g0. split; [now apply read_element_says|]. auto.
Qed.
Lemma found_same fn (g0 g : glyph) : found_in fn g0 g ->
  (forall g', glyph_restored g0 g' <-> glyph_restored g g') /\ (forall g', glyph_restored (noteless g0) g' <-> glyph_restored (noteless g) g') /\
  (lasting_texts g -> lasting_texts g0) /\ (no_minus_zero g -> no_minus_zero g0) /\ (blank_note g <-> blank_note g0) /\ contours g = contours g0.
Proof.
  intros (_ & F & _ & _ & Eo & Ea & Eg & Ei & Ew & Eu & En & Et & El).
  assert (contours g = contours g0) as Ec by (unfold contours; now rewrite Eo).
  assert (forall B (f : glifcomponent -> list B), (forall c c', c_base c = c_base c' -> c_matrix c = c_matrix c' -> c_identifier c = c_identifier c' -> f c = f c') ->
    flat_map f (cs_vec (g_components g)) = flat_map f (cs_vec (g_components g0))) as FM.
  { intros B f Hf. induction F as [|c0 c l0 l (X1 & X2 & X3 & _) _ IH]; [reflexivity|]. cbn. f_equal; [now apply Hf|exact IH]. }
  assert (forall l', Forall2 component_restored (cs_vec (g_components g0)) l' <-> Forall2 component_restored (cs_vec (g_components g)) l') as FR.
  { clear -F. induction F as [|c0 c l0 l (X1 & X2 & X3 & _) _ IH]; intros l'; [reflexivity|]. split; intros H; inversion_clear H as [|? ? ? ? H1 H2]; (constructor; [unfold component_restored in *; rewrite ?X1, ?X2, ?X3 in *; assumption|now apply IH]). }
  split; [|split; [|split; [|split; [|split]]]].
  - intros g'. unfold glyph_restored. rewrite Ec, Ea, Eg, Ei, Ew, Eu, En, Et, El, FR. reflexivity.
  - intros g'. unfold glyph_restored. unfold contours. cbn. rewrite Eo, Ea, Eg, Ei, Ew, Eu, En, El, FR. reflexivity.
  - unfold lasting_texts, attribute_texts, lib_texts. rewrite Ec, Ea, Eg, Ei, En, Et, El.
    rewrite (FM _ (fun c => c_base c :: given (c_identifier c))); [tauto|]. intros c c' -> _ ->. reflexivity.
  - unfold no_minus_zero, numbers. rewrite Ec, Ea, Eg, Ei. rewrite (FM _ (fun c => members (c_matrix c))); [tauto|]. intros c c' _ -> _. reflexivity.
  - unfold blank_note. now rewrite Et.
  - exact Ec.
Qed.
Lemma opened_fit root (g : glyph) : chars_in root -> read_element rust_num pd0 P pedantry_default root = Ok g ->
  (forall ce, In ce (contours_in root) -> plain_contour ce) -> no_minus_zero g -> lasting_texts g -> glyph_ok rust_num P g /\ carried_glyph P g.
Proof.
  intros Hc H Hp Hz Ht. pose proof (opened_lib S pd0 rust_num pedantry_default root g Hc H HS (proj2 (proj2 Ht))) as Hl.
  assert (lib_ok P (g_lib g) /\ carried_lib P (g_lib g)) as [K1 K2].
  { destruct (g_lib g) as [|d|x]; [| |contradiction].
    - split; [exact I|]. intros e [E|(d & E & _)]; discriminate.
    - destruct Hl as (W1 & W2 & W3 & W4 & W5). now apply C108_restored. }
  split; [now apply (opened_ok pd0 P pedantry_default root g)|now apply (opened_carried S pd0 rust_num pedantry_default root g)].
Qed.
Lemma loaded_file disk fn b (g : glyph) : bytes g = Ok b -> disk fn = Some b -> glyph_ok rust_num P g -> carried_glyph P g ->
  exists g', load disk fn = Ok g' /\ (~ blank_note g -> glyph_restored g g') /\ (blank_note g -> glyph_restored (noteless g) g').
Proof.
  intros Hw Hd Hok Hc. unfold write_text in Hw. destruct (glif_xml rust_num P dbg g) as [e| |] eqn:He; try discriminate. cbn [bind] in Hw.
  destruct (glif_carried rust_num pd0 P dbg C106_numbers g e He Hc) as (H1 & H2 & H3). destruct (parse_print e H1) as (t & Ht & Hp).
  unfold print_bytes in Hw. rewrite Ht in Hw. cbn [ok_or] in Hw. assert (utf8_encode t = b) as <- by (now injection Hw). clear Hw.
  assert (utf8_decode (utf8_encode t) = Some t) as Hde by (apply decode_encode, parsed_scalars with (e := unblank e); exact Hp).
  assert (forall g0 : glyph, read_element rust_num pd0 P pedantry_default (unblank e) = Ok g0 -> exists g', load disk fn = Ok g' /\ found_in fn g0 g') as K.
  { intros g0 H. eexists. split; [apply read_file_is|apply found_in_is; reflexivity]. exists t, (unblank e), g0. split; [unfold texts_of; now rewrite Hd|]. split; [exact Hp|]. split; [now apply read_element_says|]. apply found_in_is. reflexivity. }
  assert (forall fn' (h g0 g' : glyph), found_in fn' g0 g' -> glyph_restored h g0 -> glyph_restored h g') as R.
  { intros fn' h g0 g' (_ & F & _ & _ & Eo & Ea & Eg & Ei & Ew & Eu & En & Et & El). unfold glyph_restored, contours. rewrite Eo, Ea, Eg, Ei, Ew, Eu, En, Et, El.
    intros (R1 & R2 & R3 & R4 & R5 & R6 & R7). do 5 (split; [assumption|]). split; [|exact R7]. clear -F R6. revert R6. generalize (cs_vec (g_components h)). induction F as [|c0 c l0 l (X1 & X2 & X3 & _) _ IH]; intros k H; [exact H|].
    inversion_clear H as [|? ? ? ? H1 H2]. constructor; [|now apply IH]. unfold component_restored in *. now rewrite X1, X2, X3. }
  assert (blank_note g \/ ~ blank_note g) as [Hb|Hb].
  { unfold blank_note. destruct (g_note g) as [s|]; [|right; intros (s & E & _); discriminate]. destruct (blankb s) eqn:E; [left; exists s; split; [reflexivity|now apply blankb_iff]|].
    right. intros (s' & E' & B). injection E' as <-. apply (proj2 (blankb_iff s)) in B. congruence. }
  - destruct (H3 Hb) as (e1 & E1 & E2). assert (glyph_ok rust_num P (noteless g)) as Hok' by exact Hok.
    destruct (C24_glyph_restored rust_num PD _ pd0 P dbg (noteless g) (proj1 C24_rust_numbers) Hok') as (e0 & g0 & H4 & H5 & H6). rewrite H4 in E1. injection E1 as <-.
    destruct (K g0) as (g' & L1 & L2); [now rewrite E2|]. exists g'. split; [exact L1|]. split; [contradiction|]. intros _. now apply (R fn _ g0).
  - destruct (C24_glyph_restored rust_num PD _ pd0 P dbg g (proj1 C24_rust_numbers) Hok) as (e0 & g0 & H4 & H5 & H6). rewrite He in H4. injection H4 as <-.
    destruct (K g0) as (g' & L1 & L2); [now rewrite (H2 Hb)|]. exists g'. split; [exact L1|]. split; [|contradiction]. intros _. now apply (R fn _ g0).
Qed.

(** Whatever file of lines and cubic curves was opened, whoever wrote it: it can be saved, and
    opening what was saved restores the glyph; but a note of nothing but blanks is lost. *)
Theorem C116_reopened : forall disk fn b root (g : glyph),
  disk fn = Some b -> file_says b root -> load disk fn = Ok g ->
  (forall ce, In ce (contours_in root) -> plain_contour ce) -> no_minus_zero g -> lasting_texts g ->
  exists b', bytes g = Ok b' /\ forall disk' fn', disk' fn' = Some b' ->
    exists g', load disk' fn' = Ok g' /\ (~ blank_note g -> glyph_restored g g') /\ (blank_note g -> glyph_restored (noteless g) g').
Proof.
  intros disk fn b root g Hd Hf Hl Hp Hz Ht. destruct (opened_from disk fn b root g Hf Hd Hl) as (g0 & H0 & Hfo & Hc).
  destruct (found_same fn g0 g Hfo) as (F1 & F2 & F3 & F4 & F5 & F6). destruct (opened_fit root g0 Hc H0 Hp (F4 Hz) (F3 Ht)) as [Hok Hca].
  destruct (C24_glyph_restored rust_num PD _ pd0 P dbg g0 (proj1 C24_rust_numbers) Hok) as (e & _ & He & _).
  destruct (glif_carried rust_num pd0 P dbg C106_numbers g0 e He Hca) as (H1 & _). destruct (parse_print e H1) as (t & Ht' & _).
  assert (bytes g0 = Ok (utf8_encode t)) as Hb by (unfold write_text; rewrite He; cbn [bind]; unfold print_bytes; now rewrite Ht').
  exists (utf8_encode t). split; [rewrite <- Hb; unfold write_text; now rewrite (found_written rust_num P dbg fn g0 g Hfo)|].
  intros disk' fn' Hd'. destruct (loaded_file disk' fn' (utf8_encode t) g0 Hb Hd' Hok Hca) as (g' & L1 & L2 & L3). exists g'. split; [exact L1|].
  rewrite F5. split; [intros N; now apply F1, L2|intros B; now apply F2, L3].
Qed.

(** From then on the bytes of the file stay the same exactly if no contour starts and ends with
    curves between points that differ. *)
Theorem C116_same_bytes : forall disk fn b root (g : glyph),
  disk fn = Some b -> file_says b root -> load disk fn = Ok g ->
  (forall ce, In ce (contours_in root) -> plain_contour ce) -> no_minus_zero g -> lasting_texts g -> ~ blank_note g ->
  exists b', bytes g = Ok b' /\ forall disk' fn', disk' fn' = Some b' ->
    exists g' b'', load disk' fn' = Ok g' /\ bytes g' = Ok b'' /\ (b'' = b' <-> forall c, In c (contours g) -> ~ wandering c).
Proof.
  intros disk fn b root g Hd Hf Hl Hp Hz Ht Hn. destruct (C116_reopened disk fn b root g Hd Hf Hl Hp Hz Ht) as (b' & Hb & _). exists b'. split; [exact Hb|].
  destruct (opened_from disk fn b root g Hf Hd Hl) as (g0 & H0 & Hfo & Hc).
  destruct (found_same fn g0 g Hfo) as (F1 & F2 & F3 & F4 & F5 & F6). destruct (opened_fit root g0 Hc H0 Hp (F4 Hz) (F3 Ht)) as [Hok Hca].
  intros disk' fn' Hd'. rewrite F6. rewrite F5 in Hn. unfold write_text in Hb. rewrite (found_written rust_num P dbg fn g0 g Hfo) in Hb.
  apply (C110_bytes_exactly rust_num pd0 P dbg (proj1 C24_rust_numbers) C106_numbers g0 disk' fn' b' Hok); try assumption.
  intros i Hi. apply C110_rust_numbers. exact (opened_numbers pd0 P pedantry_default root g0 H0 (F4 Hz) i Hi).
Qed.
End C116.
Print Assumptions C116_reopened.
Print Assumptions C116_same_bytes.

(** ** Cases *)
(** Real numbers as in the standard library are read back. *)
Theorem C116_reals : faithful_scalars reals.
Proof.
  intros n s x H. cbn [reals scalar_read] in H. destruct (str_eqb n (lit "real")); [|discriminate]. apply (f32_read_valid s x) in H.
  pose proof (rust_f32_round_trip x H) as R. split; [now left|]. cbn [reals scalar_show fst snd]. split; [|split].
  - apply Forall_forall. intros c Hc. apply rust_f32_ascii in Hc. unfold document_char. lia.
  - destruct (rust_f32_show x) as [|c t] eqn:E; [discriminate|]. exists c. split; [now left|]. intros B.
    assert (c = 32%N) as -> by (assert (32 <= c <= 126)%N as Hr by (apply (rust_f32_ascii x); rewrite E; now left); unfold blank in B; lia). discriminate.
  - exact R.
Qed.
Print Assumptions C116_reals.

(** A file by another program: other quotes, comments, references, CDATA, a key given twice. *)
Definition foreign : str :=
  lit "<?xml version='1.0'?><!-- made elsewhere --><glyph format='2' name=""A&amp;&#x42;"">" ++ [10%N; 9%N] ++
  lit "<note>see <![CDATA[<here>]]></note><lib><dict><key>k</key><true/><key>r</key><real>0.50</real><key>k</key><string>a&lt;b</string></dict></lib>" ++ [13%N; 10%N] ++
  lit "<outline><contour><point y='10.50' x='+1' type='line' name='&quot;p&quot;'/><point x='3' y='4'/><point x='5' y='6'/><point type='curve' x='7' y='8' smooth='yes'/></contour></outline></glyph>".
Definition foreign_disk (p : path) : option (list N) := if list_eq_dec (list_eq_dec N.eq_dec) p [lit "a.glif"] then Some (utf8_encode foreign) else None.
Example C116_case : exists root (g : glif unit (list (str * pvalue f32))),
  foreign_disk [lit "a.glif"] = Some (utf8_encode foreign) /\ file_says (utf8_encode foreign) root /\
  read_from_filename rust_num tt (xml_plist reals) str (texts_of foreign_disk) parse_xml pedantry_default [lit "a.glif"] = Ok g /\
  (forall ce, In ce (contours_in root) -> plain_contour ce) /\ no_minus_zero g /\ lasting_texts g /\ ~ blank_note g /\
  g_name g = lit "A&B" /\ g_note g = Some (lit "see <here>") /\ g_lib g = LPlist [(lit "k", PText (lit "a<b")); (lit "r", PScalar (fl "0.5"))] /\
  contours g <> [].
Proof.
  assert (exists root, parse_xml foreign = Some root) as (root & E) by (eexists; vm_compute; reflexivity).
  exists root. eexists. split; [reflexivity|]. split.
  { exists foreign. split; [apply decode_iff, decode_encode, parsed_scalars with (e := root); exact E|now apply parse_document]. }
  split; [vm_compute; reflexivity|]. vm_compute in E. injection E as <-.
  split.
  { intros ce [<-|[]] pre e post H. vm_compute in H. 
    do 4 (destruct pre as [|? pre]; [injection H as <- H; split; [vm_compute; discriminate|first [intros X; now destruct (X eq_refl)|intros _; vm_compute; discriminate]]|injection H as _ H]).
    now destruct pre. }
  split; [intros H; vm_compute in H; repeat (destruct H as [H|H]; [discriminate H|]); exact H|].
  split; [split; [|split]|].
  - intros s H. vm_compute in H. repeat (destruct H as [<-|H]; [intros Q; vm_compute in Q; repeat (destruct Q as [Q|Q]; [discriminate Q|]); exact Q|]). destruct H.
  - intros s [= <-] Q. vm_compute in Q. repeat (destruct Q as [Q|Q]; [discriminate Q|]). exact Q.
  - intros s (d & E & H). injection E as <-. assert (s = lit "a<b" \/ s = lit "k" \/ s = lit "r") as K.
    { destruct H as [H|(d & x & H & I)].
      - inversion H as [| |? k v ? I Hh]; subst. destruct I as [I|[I|[]]]; injection I as <- <-; inversion Hh; subst. now left.
      - inversion H as [| |? k v ? I0 Hh]; subst; [|destruct I0 as [I0|[I0|[]]]; injection I0 as <- <-; inversion Hh]. destruct I as [I|[I|[]]]; injection I as <- _; auto. }
    destruct K as [->|[->| ->]]; (split; [intros Q; vm_compute in Q; repeat (destruct Q as [Q|Q]; [discriminate Q|]); exact Q|]); right; intros B;
      [specialize (B 97%N (or_introl eq_refl))|specialize (B 107%N (or_introl eq_refl))|specialize (B 114%N (or_introl eq_refl))]; unfold blank in B; lia.
  - split; [|split; [reflexivity|split; [reflexivity|split; [reflexivity|discriminate]]]]. intros (s & [= <-] & B). specialize (B 115%N (or_introl eq_refl)). unfold blank in B. lia.
Qed.

(** C116 as stated is false: a note of one blank, spelt as a reference, is opened, and lost when saved. *)
Definition blank_file : list N := utf8_encode (lit "<glyph name='A' format='2'><note>&#32;</note></glyph>").
Definition holding (b : list N) (_ : path) : option (list N) := Some b.
Theorem C116_note_refuted : exists (g g' : glif unit (list (str * pvalue f32))) b,
  read_from_filename rust_num tt (xml_plist reals) str (texts_of (holding blank_file)) parse_xml pedantry_default [lit "a.glif"] = Ok g /\ g_note g = Some (lit " ") /\
  write_text rust_num (xml_plist reals) false print_bytes g = Ok b /\
  read_from_filename rust_num tt (xml_plist reals) str (texts_of (holding b)) parse_xml pedantry_default [lit "a.glif"] = Ok g' /\ g_note g' = None.
Proof. eexists. eexists. eexists. split; [vm_compute; reflexivity|]. split; [reflexivity|]. split; [vm_compute; reflexivity|]. split; [vm_compute; reflexivity|reflexivity]. Qed.
Print Assumptions C116_note_refuted.
