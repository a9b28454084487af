(** C120: flattened glyphs, in files. *)
Require Import Coq.Strings.String Coq.Lists.List Coq.Arith.Arith Coq.NArith.NArith Coq.ZArith.ZArith Coq.Bool.Bool Coq.Floats.SpecFloat Coq.micromega.Lia Coq.Relations.Relation_Operators.
Require Import Verif.Model.Base Verif.Model.Text Verif.Model.Float Verif.Model.Num Verif.Model.RustNum Verif.Model.Point Verif.Model.Contour Verif.Model.Create Verif.Model.Names Verif.Model.Pedantry
  Verif.Model.Color Verif.Model.Xml Verif.Model.XmlText Verif.Model.Plist Verif.Model.Utf8 Verif.Model.Parts Verif.Model.Read Verif.Model.Write Verif.Model.Interop Verif.Model.Component Verif.Model.Conv
  Verif.Spec.TextSpec Verif.Spec.GlyphSpec Verif.Spec.DocumentSpec Verif.Spec.OpenSpec Verif.Spec.XmlTextSpec Verif.Spec.PlistSpec Verif.Spec.GrammarSpec Verif.Spec.BytesSpec
  Verif.Spec.FileSpec Verif.Spec.ZeroSpec Verif.Spec.RestSpec Verif.Spec.ComponentSpec Verif.Spec.FlatSpec
  Verif.Facts.RustNumFacts Verif.Facts.XmlTextFacts Verif.Facts.XmlGlyphFacts Verif.Facts.BytesFacts Verif.Facts.WrittenFacts Verif.Facts.DocumentFacts Verif.Facts.OpenFacts
  Verif.Facts.AgainFacts Verif.Facts.PlistFacts Verif.Facts.GrammarFacts Verif.Facts.FileFacts Verif.Facts.ZeroFacts Verif.Facts.ComponentFacts Verif.Facts.FlatFacts
  Verif.Props.PropsGlyph Verif.Props.PropsXml Verif.Props.PropsPlist Verif.Props.PropsBytes Verif.Props.PropsComponent Verif.Props.PropsFile Verif.Props.PropsZero Verif.Props.PropsZeroFile Verif.Props.PropsFlat.
Import ListNotations.
Local Open Scope string_scope.
Local Open Scope list_scope.

Section C120.
Context {X : Type} (Sc : scalars X) {PD : Type} (pd0 : PD) (dbg : bool) (HS : faithful_scalars Sc).
Local Notation P := (xml_plist Sc).
Local Notation load disk fn := (read_from_filename rust_num pd0 P str (texts_of disk) parse_xml pedantry_default fn).
Local Notation bytes g := (write_text rust_num P dbg print_bytes g).
Local Notation glyph := (glif PD (list (str * pvalue X))).

Lemma opened_names root (g : glyph) c p s : chars_in root -> read_element rust_num pd0 P pedantry_default root = Ok g ->
  In c (contours g) -> In p c -> pname p = Some s -> chars s.
Proof.
  intros Hc H Hin Hpc Es. destruct (proj1 (contours_read rust_num pd0 P pedantry_default root g H) c Hin) as (ce & Hce & (Hne & gc & Hgc & Hcc)).
  assert (chars_in ce) as Hch.
  { unfold contours_in in Hce. destruct (GlyphSpec.named "outline" root) as [|oe r] eqn:Eo; [destruct Hce|]. apply (chars_named "contour" oe); [|exact Hce]. apply (chars_named "outline" root); [exact Hc|rewrite Eo; now left]. }
  assert (exists q, In q gc /\ pname p = gname q) as (q & Hq & Eq).
  { destruct gc as [|q gc]; [discriminate|]. unfold contour_of_glif in Hcc.
    destruct (gptype q) eqn:Eg; try (injection Hcc as <-; congruence); try (now apply (cubic_contour_names (q :: gc) c)).
    all: injection Hcc as <-; destruct (quadratic_names rust_num _ p Hpc) as [X0|X0]; [congruence|exact X0]. }
  destruct (Forall2_right _ _ _ q Hgc Hq) as (e & He & (_ & _ & _ & En & _)). apply (chars_get e "name"); [now apply (chars_named "point" ce)|congruence].
Qed.
Lemma disk_says disk fn t root : texts_of disk fn = Some t -> parse_xml t = Some root -> exists b, disk fn = Some b /\ file_says b root.
Proof.
  unfold texts_of. destruct (disk fn) as [b|]; [|discriminate]. intros Hd Hp. exists b. split; [reflexivity|]. exists t. split; [now apply decode_iff|now apply parse_document].
Qed.
Lemma disk_chars disk fn t root : texts_of disk fn = Some t -> parse_xml t = Some root -> chars_in root.
Proof. intros _ Hp. apply parse_document in Hp. now apply (document_chars t). Qed.

(** The flattened glyph has only characters XML can carry. *)
Lemma flattened_carried disk fn fuel rects (g g' : glyph) rs : load disk fn = Ok g -> lasting_texts g ->
  flattened rust_num pd0 P (texts_of disk) parse_xml fuel rects g = Some (Ok (g', rs)) -> lasting_texts g' ->
  lib_ok P (g_lib g) /\ carried_glyph P g'.
Proof.
  intros Hl Ht H Ht'. assert (exists root g0, read_element rust_num pd0 P pedantry_default root = Ok g0 /\ found_in fn g0 g /\ chars_in root) as (root & g0 & H0 & Hfo & Hc).
  { pose proof Hl as Hl0. apply read_file_is in Hl0 as (t & root & g0 & A1 & A2 & _). destruct (disk_says disk fn t root A1 A2) as (b & B1 & B2).
    exists root. exact (opened_from Sc pd0 disk fn b root g B2 B1 Hl). }
  destruct (found_same fn g0 g Hfo) as (_ & _ & F3 & _). specialize (F3 Ht).
  pose proof (opened_lib Sc pd0 rust_num pedantry_default root g0 Hc H0 HS (proj2 (proj2 F3))) as Hlib.
  assert (lib_ok P (g_lib g0) /\ carried_lib P (g_lib g0)) as [K1 K2].
  { destruct (g_lib g0) as [|d|x]; [| |contradiction].
    - split; [exact I|]. intros e [E|(d & E & _)]; discriminate.
    - destruct Hlib as (W1 & W2 & W3 & W4 & W5). now apply C108_restored. }
  assert (carried_glyph P g0) as (C1 & C2 & C3 & C4 & C5 & C6 & C7 & C8) by (now apply (opened_carried_any Sc pd0 rust_num pedantry_default root g0)).
  destruct Hfo as (_ & _ & _ & _ & Eo & Ea & Eg & Ei & Ew & Eu & En & Et & El). split; [now rewrite El|].
  destruct (C36_frame rust_num pd0 P (texts_of disk) parse_xml fuel rects g g' rs H) as (G1 & G2 & G3 & _ & _ & G6 & G7 & _ & G9 & G10 & _).
  unfold carried_glyph. rewrite G1, G2, G3, G6, G7, G9, G10, Ea, Eg, Ei, En, Et, El.
  do 3 (split; [assumption|]). split; [constructor|]. split; [assumption|]. split; [|now split].
  destruct (flattened_contours rust_num pd0 P (texts_of disk) parse_xml fuel rects g g' rs H) as (ts & R & M).
  apply Forall_forall. intros c' Hc'. apply Forall_forall. intros q Hq s Es.
  destruct (Forall2_right _ _ _ c' M Hc') as ((ms & c) & Hx & Hm). cbn [fst snd] in Hm. destruct (Forall2_right _ _ _ q Hm Hq) as (p & Hp & (_ & _ & _ & Ep & _)).
  apply attribute_of.
  - assert (exists r k, to_component rust_num pd0 P (texts_of disk) parse_xml r = Ok k /\ In c (own_contours k)) as (r & k & Hk & Hin).
    { destruct (proj1 (placed_near _ _ ts c R) (ex_intro _ ms Hx)) as (r0 & k0 & Hr0 & Hk0 & [Hin|(r & k & Hr & Hk & Hin)]); eauto. }
    destruct (loaded_document rust_num pd0 P (texts_of disk) parse_xml r k Hk) as (rt & new & (f & t & _ & D1 & D2) & Hn & E). rewrite E in Hin.
    apply (opened_names rt new c p s); auto; [exact (disk_chars disk f t rt D1 D2)|congruence].
  - apply Ht'. unfold attribute_texts. right. do 4 (apply in_app_iff; right). apply in_flat_map. exists q. split; [apply in_concat; eauto|]. rewrite Es. now left.
Qed.

(** C120: the same for files: the flattened glyph is saved as bytes, and opening them gives it again up to the
    minus signs of zeros; but a note of nothing but blanks is lost. *)
Theorem C120_file_reopened : forall disk fn fuel rects (g g' : glyph) rs,
  load disk fn = Ok g -> lasting_texts g ->
  (forall r0 r root ce, In r0 (cs_vec (g_components g)) -> reaches (to_component rust_num pd0 P (texts_of disk) parse_xml) r0 r ->
     document_of (texts_of disk) parse_xml r root -> In ce (contours_in root) -> plain_contour ce) ->
  flattened rust_num pd0 P (texts_of disk) parse_xml fuel rects g = Some (Ok (g', rs)) -> lasting_texts g' ->
  exists b', bytes g' = Ok b' /\ forall disk' fn', disk' fn' = Some b' ->
    exists h, load disk' fn' = Ok h /\ cs_vec (g_components h) = [] /\
      (~ blank_note g -> glyph_restored (plus_zeros g') h) /\ (blank_note g -> glyph_restored (noteless (plus_zeros g')) h).
Proof.
  intros disk fn fuel rects g g' rs Hl Ht Hpl H Ht'. destruct (flattened_carried disk fn fuel rects g g' rs Hl Ht H Ht') as [Hlib Hca].
  pose proof (flattened_in_order pd0 P (texts_of disk) parse_xml pedantry_default fn fuel rects g g' rs Hl Hlib Hpl H) as Hok.
  destruct (C36_frame rust_num pd0 P (texts_of disk) parse_xml fuel rects g g' rs H) as (_ & _ & _ & _ & _ & _ & G7 & _ & _ & G10 & _).
  destruct (saved_plus Sc pd0 dbg g' Hok) as (e & g1 & He & R1 & T1).
  destruct (glif_carried rust_num pd0 P dbg C106_numbers g' e He Hca) as (H1 & H2 & H3). destruct (parse_print e H1) as (t & Hpt & Hpr).
  exists (utf8_encode t). split.
  { unfold write_text. rewrite He. cbn [bind]. unfold print_bytes. now rewrite Hpt. }
  intros disk' fn' Hd'. assert (utf8_decode (utf8_encode t) = Some t) as Hde by (apply decode_encode, parsed_scalars with (e := unblank e); exact Hpr).
  assert (forall h : glyph, read_element rust_num pd0 P pedantry_default (unblank e) = Ok h -> exists h', load disk' fn' = Ok h' /\ found_in fn' h h') as K.
  { intros h Hh. eexists. split; [apply read_file_is|apply found_in_is; reflexivity]. exists t, (unblank e), h. split; [unfold texts_of; now rewrite Hd'|]. split; [exact Hpr|]. split; [now apply read_element_says|]. apply found_in_is. reflexivity. }
  assert (forall (h g2 h' : glyph), cs_vec (g_components h) = [] -> found_in fn' g2 h' -> glyph_restored h g2 -> glyph_restored h h' /\ cs_vec (g_components h') = []) as R.
  { intros h g2 h' Eh (_ & F & _ & _ & Eo & Ea & Eg & Ei & Ew & Eu & En & Et & El). unfold glyph_restored, contours. rewrite Eo, Ea, Eg, Ei, Ew, Eu, En, Et, El, Eh.
    intros (Q1 & Q2 & Q3 & Q4 & Q5 & Q6 & Q7). assert (cs_vec (g_components g2) = []) as E0 by (inversion Q6; reflexivity). rewrite E0 in F. assert (cs_vec (g_components h') = []) as E1 by (inversion F; reflexivity). rewrite E1. split; [|reflexivity]. do 5 (split; [assumption|]). split; [constructor|exact Q7]. }
  assert (blank_note g <-> blank_note g') as Eb by (unfold blank_note; now rewrite G7).
  assert (cs_vec (g_components (plus_zeros g')) = []) as G10' by (cbn [plus_zeros g_components cs_vec]; now rewrite G10).
  assert (blank_note g' \/ ~ blank_note g') as [Hb|Hb].
  { unfold blank_note. destruct (g_note g') as [s|]; [|right; intros (s & E & _); discriminate]. destruct (blankb s) eqn:E; [left; exists s; split; [reflexivity|now apply blankb_iff]|].
    right. intros (s' & E' & B). injection E' as <-. apply (proj2 (blankb_iff s)) in B. congruence. }
  - destruct (H3 Hb) as (e1 & E1 & E2). assert (glyph_ok rust_num P (plus_zeros (noteless g'))) as Hok' by exact Hok.
    destruct (saved_plus Sc pd0 dbg (noteless g') Hok') as (e0 & g2 & H4 & H5 & H6). rewrite H4 in E1. injection E1 as <-.
    destruct (K g2) as (h & L1 & L2); [now rewrite E2|]. exists h. split; [exact L1|]. destruct (R (plus_zeros (noteless g')) g2 h G10' L2 H6) as [A B]. split; [exact B|]. split; [intros N; now apply Eb in Hb|]. intros _. exact A.
  - destruct (K g1) as (h & L1 & L2); [now rewrite (H2 Hb)|]. exists h. split; [exact L1|]. destruct (R (plus_zeros g') g1 h G10' L2 T1) as [A B]. split; [exact B|]. split; [|intros N; now apply Eb in N]. intros _. exact A.
Qed.
End C120.
Print Assumptions C120_file_reopened.

(** `a.glif` places `B`, of three named points, twice, with a minus zero. *)
Definition user_file : str :=
  lit "<?xml version='1.0'?><glyph format='2' name=""A""><note>n</note><outline><component base='B' xOffset='-0.0' yOffset='7'/><component base='B' xScale='2'/></outline></glyph>".
Definition base_file : str :=
  lit "<?xml version='1.0'?><glyph format='2' name=""B""><outline><contour><point x='1' y='2' type='line' name='n'/><point x='5' y='2' type='line'/><point x='5' y='7' type='line'/></contour></outline></glyph>".
Definition two_disk (p : path) : option (list N) :=
  if list_eq_dec (list_eq_dec N.eq_dec) p [lit "a.glif"] then Some (utf8_encode user_file)
  else if list_eq_dec (list_eq_dec N.eq_dec) p [lit "B_.glif"] then Some (utf8_encode base_file) else None.
Lemma two_plain : forall fn txt root ce, texts_of two_disk fn = Some txt -> parse_xml txt = Some root -> In ce (contours_in root) -> plain_contour ce.
Proof.
  intros fn txt root ce Ht Hp Hc. unfold texts_of, two_disk in Ht.
  destruct (list_eq_dec (list_eq_dec N.eq_dec) fn [lit "a.glif"]) as [_|_].
  { replace (utf8_decode (utf8_encode user_file)) with (Some user_file) in Ht by (vm_compute; reflexivity). injection Ht as <-. vm_compute in Hp. injection Hp as <-. destruct Hc. }
  destruct (list_eq_dec (list_eq_dec N.eq_dec) fn [lit "B_.glif"]) as [_|_]; [|discriminate].
  replace (utf8_decode (utf8_encode base_file)) with (Some base_file) in Ht by (vm_compute; reflexivity). injection Ht as <-. vm_compute in Hp. injection Hp as <-.
  destruct Hc as [<-|[]]. apply complete_plain. exists [Line; Line; Line]. split.
  - repeat (apply Forall2_cons; [exact names_line|]). apply Forall2_nil.
  - right; right. exists Line, [Line; Line]. split; [reflexivity|]. split; [discriminate|]. apply a_line, a_line, a_line, no_piece.
Qed.
Ltac lasts := split; [|split];
  [intros s H; vm_compute in H; repeat (destruct H as [<-|H]; [intros Q; vm_compute in Q; repeat (destruct Q as [Q|Q]; [discriminate Q|]); exact Q|]); destruct H
  |intros s E Q; vm_compute in E; injection E as <-; vm_compute in Q; repeat (destruct Q as [Q|Q]; [discriminate Q|]); exact Q
  |intros s (d & Q & _); discriminate Q].
Example C120_file_case : exists (g g' h : glif unit (list (str * pvalue f32))) rs b',
  read_from_filename rust_num tt (xml_plist reals) str (texts_of two_disk) parse_xml pedantry_default [lit "a.glif"] = Ok g /\ lasting_texts g /\
  (forall r0 r root ce, In r0 (cs_vec (g_components g)) -> reaches (to_component rust_num tt (xml_plist reals) (texts_of two_disk) parse_xml) r0 r ->
     document_of (texts_of two_disk) parse_xml r root -> In ce (contours_in root) -> plain_contour ce) /\
  flattened rust_num tt (xml_plist reals) (texts_of two_disk) parse_xml 10 None g = Some (Ok (g', rs)) /\ lasting_texts g' /\
  write_text rust_num (xml_plist reals) false print_bytes g' = Ok b' /\
  read_from_filename rust_num tt (xml_plist reals) str (texts_of (fun _ => Some b')) parse_xml pedantry_default [lit "flat.glif"] = Ok h /\
  map (map px) (contours h) = [[f32_of_Z 1; f32_of_Z 5; f32_of_Z 5]; [f32_of_Z 2; f32_of_Z 10; f32_of_Z 10]] /\ map (map pname) (contours h) = [[Some (lit "n"); None; None]; [Some (lit "n"); None; None]].
Proof.
  do 5 eexists. split; [vm_compute; reflexivity|]. split; [lasts|]. split.
  { intros r0 r root ce _ _ (fn & txt & _ & Hf & Hp) Hc. exact (two_plain fn txt root ce Hf Hp Hc). }
  split; [vm_compute; reflexivity|]. split; [lasts|]. split; [vm_compute; reflexivity|]. split; [vm_compute; reflexivity|]. split; vm_compute; reflexivity.
Qed.
