(** C118: the minus sign of a zero, in files. *)
Require Import Coq.Strings.String Coq.Lists.List Coq.Arith.Arith Coq.NArith.NArith Coq.ZArith.ZArith Coq.Bool.Bool Coq.Floats.SpecFloat Coq.micromega.Lia.
Require Import Verif.Model.Base Verif.Model.Text Verif.Model.Float Verif.Model.Num Verif.Model.RustNum Verif.Model.Point Verif.Model.Names Verif.Model.Pedantry
  Verif.Model.Color Verif.Model.Xml Verif.Model.XmlText Verif.Model.Plist Verif.Model.Utf8 Verif.Model.Parts Verif.Model.Read Verif.Model.Write Verif.Model.Interop
  Verif.Spec.TextSpec Verif.Spec.GlyphSpec Verif.Spec.DocumentSpec Verif.Spec.OpenSpec Verif.Spec.XmlTextSpec Verif.Spec.PlistSpec Verif.Spec.GrammarSpec Verif.Spec.BytesSpec
  Verif.Spec.FileSpec Verif.Spec.AgainSpec Verif.Spec.ZeroSpec
  Verif.Facts.RustNumFacts Verif.Facts.XmlTextFacts Verif.Facts.XmlGlyphFacts Verif.Facts.BytesFacts Verif.Facts.WrittenFacts Verif.Facts.DocumentFacts Verif.Facts.OpenFacts
  Verif.Facts.AgainFacts Verif.Facts.PlistFacts Verif.Facts.GrammarFacts Verif.Facts.FileFacts Verif.Facts.ZeroFacts
  Verif.Props.PropsGlyph Verif.Props.PropsXml Verif.Props.PropsPlist Verif.Props.PropsBytes Verif.Props.PropsAgain Verif.Props.PropsFile Verif.Props.PropsZero.
Import ListNotations.
Local Open Scope list_scope.

Section C118.
Context {X : Type} (S : scalars X) {PD : Type} (pd0 : PD) (dbg : bool) (HS : faithful_scalars S).
Local Notation P := (xml_plist S).
Local Notation load disk fn := (read_from_filename rust_num pd0 P str (texts_of disk) parse_xml pedantry_default fn).
Local Notation bytes g := (write_text rust_num P dbg print_bytes g).
Local Notation glyph := (glif PD (list (str * pvalue X))).

Lemma found_plus fn (g0 g : glyph) : found_in fn g0 g -> found_in fn (plus_zeros g0) (plus_zeros g).
Proof.
  intros (E1 & F & E2 & E3 & Eo & Ea & Eg & Ei & Ew & Eu & En & Et & El). unfold found_in. cbn [plus_zeros g_filename g_components cs_vec cs_root cs_uniques g_outline g_anchors g_guidelines g_images g_width g_unicode g_name g_note g_lib].
  rewrite Eo, Ea, Eg, Ei. split; [exact E1|]. split; [|repeat split; assumption].
  induction F as [|c0 c l0 l (X1 & X2 & X3 & X4) _ IH]; constructor; [|exact IH].
  cbn [plus_component c_base c_matrix c_identifier c_filename]. rewrite X2. repeat split; assumption.
Qed.
Lemma fit_plus root (g : glyph) : chars_in root -> read_element rust_num pd0 P pedantry_default root = Ok g ->
  (forall ce, In ce (contours_in root) -> plain_contour ce) -> lasting_texts g -> glyph_ok rust_num P (plus_zeros g) /\ carried_glyph P g.
Proof.
  intros Hc H Hp Ht. pose proof (opened_lib S pd0 rust_num pedantry_default root g Hc H HS (proj2 (proj2 Ht))) as Hl.
  assert (lib_ok P (g_lib g) /\ carried_lib P (g_lib g)) as [K1 K2].
  { destruct (g_lib g) as [|d|x]; [| |contradiction].
    - split; [exact I|]. intros e [E|(d & E & _)]; discriminate.
    - destruct Hl as (W1 & W2 & W3 & W4 & W5). now apply C108_restored. }
  split; [now apply (opened_plus pd0 P pedantry_default root g)|now apply (opened_carried S pd0 rust_num pedantry_default root g)].
Qed.
(** What is read from the tree saved, for a glyph that is in order without its minus signs. *)
Lemma saved_plus (g : glyph) : glyph_ok rust_num P (plus_zeros g) ->
  exists e g', glif_xml rust_num P dbg g = Ok e /\ read_element rust_num pd0 P pedantry_default e = Ok g' /\ glyph_restored (plus_zeros g) g'.
Proof.
  intros Hok. destruct (C24_glyph_restored rust_num PD _ pd0 P dbg (plus_zeros g) (proj1 C24_rust_numbers) Hok) as (e' & g' & E & R & T).
  destruct (rust_glyph_plus pd0 P dbg pedantry_default g) as [(f' & f & F' & F & Y)|[[F' _]|(er & F' & _)]]; [|congruence|congruence].
  exists f, g'. split; [exact F|]. split; [|exact T]. rewrite <- Y. congruence.
Qed.

(** C118: whatever file of lines and cubic curves was opened, whoever wrote it, whatever its zeros:
    it can be saved, and opening what was saved restores the glyph without minus signs before
    zeros, and with none left; but a note of nothing but blanks is lost. *)
Theorem C118_file_reopened : forall disk fn b root (g : glyph),
  disk fn = Some b -> file_says b root -> load disk fn = Ok g ->
  (forall ce, In ce (contours_in root) -> plain_contour ce) -> lasting_texts g ->
  exists b', bytes g = Ok b' /\ forall disk' fn', disk' fn' = Some b' ->
    exists g', load disk' fn' = Ok g' /\ no_minus_zero g' /\
      (~ blank_note g -> glyph_restored (plus_zeros g) g') /\ (blank_note g -> glyph_restored (noteless (plus_zeros g)) g').
Proof.
  intros disk fn b root g Hd Hf Hl Hp Ht. destruct (opened_from S pd0 disk fn b root g Hf Hd Hl) as (g0 & H0 & Hfo & Hc).
  destruct (found_same fn g0 g Hfo) as (_ & _ & F3 & _ & F5 & _). destruct (found_same fn _ _ (found_plus fn g0 g Hfo)) as (F1 & F2 & _).
  destruct (fit_plus root g0 Hc H0 Hp (F3 Ht)) as [Hok Hca].
  destruct (saved_plus g0 Hok) as (e & g1 & He & R1 & T1).
  destruct (glif_carried rust_num pd0 P dbg C106_numbers g0 e He Hca) as (H1 & H2 & H3). destruct (parse_print e H1) as (t & Ht' & Hpr).
  exists (utf8_encode t). split.
  { unfold write_text. rewrite (found_written rust_num P dbg fn g0 g Hfo), He. cbn [bind]. unfold print_bytes. now rewrite Ht'. }
  intros disk' fn' Hd'. assert (utf8_decode (utf8_encode t) = Some t) as Hde by (apply decode_encode, parsed_scalars with (e := unblank e); exact Hpr).
  assert (forall h : glyph, read_element rust_num pd0 P pedantry_default (unblank e) = Ok h -> exists g', load disk' fn' = Ok g' /\ found_in fn' h g') as K.
  { intros h H. eexists. split; [apply read_file_is|apply found_in_is; reflexivity]. exists t, (unblank e), h. split; [unfold texts_of; now rewrite Hd'|]. split; [exact Hpr|]. split; [now apply read_element_says|]. apply found_in_is. reflexivity. }
  assert (forall (h g2 g' : glyph), found_in fn' g2 g' -> glyph_restored h g2 -> glyph_restored h g') as R.
  { intros h g2 g' (_ & F & _ & _ & Eo & Ea & Eg & Ei & Ew & Eu & En & Et & El). unfold glyph_restored, contours. rewrite Eo, Ea, Eg, Ei, Ew, Eu, En, Et, El.
    intros (Q1 & Q2 & Q3 & Q4 & Q5 & Q6 & Q7). do 5 (split; [assumption|]). split; [|exact Q7]. clear -F Q6. revert Q6. generalize (cs_vec (g_components h)). induction F as [|c0 c l0 l (X1 & X2 & X3 & _) _ IH]; intros k H; [exact H|].
    inversion_clear H as [|? ? ? ? H1 H2]. constructor; [|now apply IH]. unfold component_restored in *. now rewrite X1, X2, X3. }
  assert (forall h g' : glyph, contours h = contours (plus_zeros g0) -> no_minus_zero h -> glyph_restored h g' -> no_minus_zero g') as Z.
  { intros h g' E Hz. apply restored_no_minus; [exact Hz|]. rewrite E. intros Hi. destruct Hok as (_ & _ & _ & _ & _ & _ & _ & Ho). rewrite Forall_forall in Ho. apply Ho in Hi. destruct Hi as ((p & q & Hi & _) & _). discriminate Hi. }
  assert (blank_note g0 \/ ~ blank_note g0) as [Hb|Hb].
  { unfold blank_note. destruct (g_note g0) as [s|]; [|right; intros (s & E & _); discriminate]. destruct (blankb s) eqn:E; [left; exists s; split; [reflexivity|now apply blankb_iff]|].
    right. intros (s' & E' & B). injection E' as <-. apply (proj2 (blankb_iff s)) in B. congruence. }
  - destruct (H3 Hb) as (e1 & E1 & E2). assert (glyph_ok rust_num P (plus_zeros (noteless g0))) as Hok' by exact Hok.
    destruct (saved_plus (noteless g0) Hok') as (e0 & g2 & H4 & H5 & H6). rewrite H4 in E1. injection E1 as <-.
    destruct (K g2) as (g' & L1 & L2); [now rewrite E2|]. exists g'. split; [exact L1|]. split; [apply (Z _ g' (eq_refl (contours (noteless (plus_zeros g0)))) (no_minus_plus (noteless g0))), (R _ g2 g' L2), H6|]. rewrite F5. split; [contradiction|]. intros _.
    apply F2. apply (R _ g2 g' L2). exact H6.
  - destruct (K g1) as (g' & L1 & L2); [now rewrite (H2 Hb)|]. exists g'. split; [exact L1|]. split; [apply (Z _ g' eq_refl (no_minus_plus g0)), (R _ g1 g' L2), T1|]. rewrite F5. split; [|contradiction]. intros _.
    apply F1. now apply (R _ g1 g' L2).
Qed.

Lemma carried_plus (g : glyph) : carried_glyph P g -> carried_glyph P (plus_zeros g).
Proof.
  intros (C1 & C2 & C3 & C4 & C5 & C6 & C7 & C8). unfold carried_glyph. cbn [plus_zeros g_name g_anchors g_guidelines g_components cs_vec g_images g_note g_lib].
  split; [exact C1|]. split; [now apply Forall_map|]. split; [now apply Forall_map|]. split; [now apply Forall_map|]. split; [now apply Forall_map|]. split; [|now split].
  assert (contours (plus_zeros g) = map (map plus_point) (contours g)) as E by (unfold contours; cbn [plus_zeros g_outline]; now destruct (g_outline g)).
  rewrite E. apply Forall_map. revert C6. apply Forall_impl. intros c. intros H. now apply Forall_map.
Qed.

(** C118: from the second save on the bytes of the file stay the same exactly if no contour starts
    and ends with curves between points that differ. *)
Theorem C118_file_settled : forall disk fn b root (g : glyph),
  disk fn = Some b -> file_says b root -> load disk fn = Ok g ->
  (forall ce, In ce (contours_in root) -> plain_contour ce) -> lasting_texts g ->
  exists b1, bytes g = Ok b1 /\ forall disk1 fn1, disk1 fn1 = Some b1 ->
    exists g1 b2, load disk1 fn1 = Ok g1 /\ bytes g1 = Ok b2 /\ forall disk2 fn2, disk2 fn2 = Some b2 ->
      exists g2 b3, load disk2 fn2 = Ok g2 /\ bytes g2 = Ok b3 /\ (b3 = b2 <-> forall c, In c (contours g1) -> ~ wandering c).
Proof.
  intros disk fn b root g Hd Hf Hl Hp Ht. destruct (opened_from S pd0 disk fn b root g Hf Hd Hl) as (g0 & H0 & Hfo & Hc).
  destruct (found_same fn g0 g Hfo) as (_ & _ & F3 & _ & F5 & _).
  destruct (fit_plus root g0 Hc H0 Hp (F3 Ht)) as [Hok Hca].
  destruct (saved_plus g0 Hok) as (e & g1 & He & R1 & T1).
  destruct (glif_carried rust_num pd0 P dbg C106_numbers g0 e He Hca) as (H1 & H2 & H3). destruct (parse_print e H1) as (t & Ht' & Hpr).
  exists (utf8_encode t). split.
  { unfold write_text. rewrite (found_written rust_num P dbg fn g0 g Hfo), He. cbn [bind]. unfold print_bytes. now rewrite Ht'. }
  intros disk' fn' Hd'. assert (utf8_decode (utf8_encode t) = Some t) as Hde by (apply decode_encode, parsed_scalars with (e := unblank e); exact Hpr).
  assert (exists k : glyph, glyph_ok rust_num P (plus_zeros k) /\ carried_glyph P k /\ ~ blank_note k /\ (exists e0, glif_xml rust_num P dbg k = Ok e0 /\ forall h : glyph, read_element rust_num pd0 P pedantry_default e0 = Ok h -> read_element rust_num pd0 P pedantry_default (unblank e) = Ok h) /\
    free_numbers (plus_zeros k) = free_numbers (plus_zeros g0)) as (k & K1 & K2 & K3 & (e0 & K4 & K6) & K5).
  { assert (blank_note g0 \/ ~ blank_note g0) as [Hb|Hb].
    { unfold blank_note. destruct (g_note g0) as [s|]; [|right; intros (s & E & _); discriminate]. destruct (blankb s) eqn:E; [left; exists s; split; [reflexivity|now apply blankb_iff]|].
      right. intros (s' & E' & B). injection E' as <-. apply (proj2 (blankb_iff s)) in B. congruence. }
    - exists (noteless g0). split; [exact Hok|]. split; [destruct Hca as (C1 & C2 & C3 & C4 & C5 & C6 & C7 & C8); unfold carried_glyph; repeat (split; [assumption|]); split; [intros s X'; discriminate X'|exact C8]|]. split; [intros (s & X' & _); discriminate X'|].
      split; [|reflexivity]. destruct (H3 Hb) as (e1 & E1 & E2). exists e1. split; [exact E1|]. intros h Hh. now rewrite E2.
    - exists g0. split; [exact Hok|]. split; [exact Hca|]. split; [exact Hb|]. split; [|reflexivity]. exists e. split; [exact He|]. intros h Hh. now rewrite (H2 Hb). }
  destruct (saved_plus k K1) as (e2 & g2 & E2 & R2 & T2). rewrite K4 in E2. injection E2 as <-.
  destruct (carried_restored rust_num P (plus_zeros k) g2 K1 T2 (carried_plus k K2)) as [Ca Bl].
  destruct (proj1 (C118_no_difference PD _ pd0 P dbg k) _ K4) as (e3 & E3 & R3).
  destruct (glyph_read_again rust_num pd0 P dbg (proj1 C24_rust_numbers) (plus_zeros k) e3 g2 K1) as (Gok & Gs & _); [|exact E3|rewrite <- R2; symmetry; apply R3|].
  { rewrite K5. exact (plus_settled pd0 P pedantry_default root g0 H0). }
  assert (exists g', load disk' fn' = Ok g' /\ found_in fn' g2 g') as (g' & L1 & L2).
  { eexists. split; [apply read_file_is|apply found_in_is; reflexivity]. exists t, (unblank e), g2. split; [unfold texts_of; now rewrite Hd'|]. split; [exact Hpr|]. split; [now apply read_element_says, K6|]. apply found_in_is. reflexivity. }
  destruct (C24_glyph_restored rust_num PD _ pd0 P dbg g2 (proj1 C24_rust_numbers) Gok) as (e4 & _ & E4 & _).
  assert (~ blank_note g2) as Nb by (rewrite Bl; exact K3).
  destruct (glif_carried rust_num pd0 P dbg C106_numbers g2 e4 E4 Ca) as (H4 & _). destruct (parse_print e4 H4) as (t4 & Ht4 & _).
  assert (bytes g2 = Ok (utf8_encode t4)) as B2 by (unfold write_text; rewrite E4; cbn [bind]; unfold print_bytes; now rewrite Ht4).
  exists g', (utf8_encode t4). split; [exact L1|]. split; [unfold write_text in *; now rewrite (found_written rust_num P dbg fn' g2 g' L2)|].
  destruct (found_same fn' g2 g' L2) as (_ & _ & _ & _ & _ & ->).
  intros disk'' fn'' Hd''. exact (C110_bytes_exactly rust_num pd0 P dbg (proj1 C24_rust_numbers) C106_numbers g2 disk'' fn'' _ Gok Gs Ca Nb B2 Hd'').
Qed.
End C118.
Print Assumptions C118_file_reopened.
Print Assumptions C118_file_settled.

(** A file with minus signs before zeros. *)
Definition signed_file : str :=
  lit "<?xml version='1.0'?><glyph format='2' name=""A""><note>n</note><outline><contour><point y='10.50' x='-0.0' type='line'/><point x='3' y='-0e1' type='line'/></contour></outline></glyph>".
Definition signed_disk (p : path) : option (list N) := if list_eq_dec (list_eq_dec N.eq_dec) p [lit "a.glif"] then Some (utf8_encode signed_file) else None.
Example C118_file_case : exists root (g : glif unit (list (str * pvalue f32))),
  signed_disk [lit "a.glif"] = Some (utf8_encode signed_file) /\ file_says (utf8_encode signed_file) root /\
  read_from_filename rust_num tt (xml_plist reals) str (texts_of signed_disk) parse_xml pedantry_default [lit "a.glif"] = Ok g /\
  (forall ce, In ce (contours_in root) -> plain_contour ce) /\ ~ no_minus_zero g /\ lasting_texts g /\ ~ blank_note g.
Proof.
  assert (exists root, parse_xml signed_file = Some root) as (root & E) by (eexists; vm_compute; reflexivity).
  exists root. eexists. split; [reflexivity|]. split.
  { exists signed_file. split; [apply decode_iff, decode_encode, parsed_scalars with (e := root); exact E|now apply parse_document]. }
  split; [vm_compute; reflexivity|]. vm_compute in E. injection E as <-.
  split.
  { intros ce [<-|[]] pre e post H. vm_compute in H.
    do 2 (destruct pre as [|? pre]; [injection H as <- H; split; [vm_compute; discriminate|first [intros Y; now destruct (Y eq_refl)|intros _; vm_compute; discriminate]]|injection H as _ H]).
    now destruct pre. }
  split; [intros H; apply H; vm_compute; tauto|].
  split; [split; [|split]|].
  - intros s H. vm_compute in H. repeat (destruct H as [<-|H]; [intros Q; vm_compute in Q; repeat (destruct Q as [Q|Q]; [discriminate Q|]); exact Q|]). destruct H.
  - intros s [= <-] Q. vm_compute in Q. repeat (destruct Q as [Q|Q]; [discriminate Q|]). exact Q.
  - intros s (d & E & H). discriminate E.
  - intros (s & [= <-] & B). specialize (B 110%N (or_introl eq_refl)). unfold blank in B. lia.
Qed.
