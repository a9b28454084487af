(** What number texts mean, and which error a bad document gives. *)
Require Import Coq.Strings.String Coq.Lists.List Coq.NArith.NArith Coq.ZArith.ZArith Coq.Bool.Bool Coq.QArith.QArith Coq.Floats.SpecFloat Coq.micromega.Lia.
Require Import Verif.Model.Base Verif.Model.Text Verif.Model.Float Verif.Model.Num Verif.Model.RustNum Verif.Model.Point
  Verif.Model.Contour Verif.Model.Create Verif.Model.Names Verif.Model.Pedantry Verif.Model.Color Verif.Model.Xml Verif.Model.Parts
  Verif.Model.Read Verif.Model.Penops
  Verif.Spec.TextSpec Verif.Spec.OutlineSpec Verif.Spec.GlyphSpec Verif.Spec.DocumentSpec Verif.Spec.RoundSpec Verif.Spec.FailureSpec
  Verif.Facts.TextFacts Verif.Facts.ContourFacts Verif.Facts.CreateFacts Verif.Facts.GlyphFacts Verif.Facts.DigitFacts Verif.Facts.DocumentFacts Verif.Facts.DecimalFacts Verif.Facts.FailureFacts
  Verif.Props.PropsGlyph Verif.Props.PropsDocument.
Import ListNotations.
Local Open Scope N_scope.

(** C90: a code point is read from hexadecimal digits, perhaps after a plus sign; any number
    of zeros may come first. *)
Theorem C90_code_point_text : forall (e : element) (c : N),
  read_unicode e = Ok c <-> exists s, get e "hex" = Some s /\ unsigned_text 16 s c /\ scalar c.
Proof.
  intros e c. rewrite read_unicode_says. unfold unicode_says, parse_hex_u32. split; intros (s & H1 & H2 & H3); exists s; (split; [assumption|]).
  - apply parse_uint_iff in H2; [|lia]. tauto.
  - split; [|assumption]. apply parse_uint_iff; [lia|]. split; [assumption|]. unfold scalar in H3. unfold u32_max. lia.
Qed.
Print Assumptions C90_code_point_text.

(** C90: a width of digits below 2^64 is that number under every setting. *)
Theorem C90_width_text : forall (L : numlib) (ped : pedantry) (a : element) (s : str) (w : N),
  get a "width" = Some s -> unsigned_text 10 s w -> w < 2 ^ 64 -> read_advance L ped a = Ok w.
Proof.
  intros L ped a s w H1 H2 H3. apply read_advance_says. exists s. split; [assumption|]. left. apply parse_uint_iff; [lia|]. split; [assumption|].
  change (2 ^ 64) with (N.succ u64_max) in H3. now apply N.lt_succ_r.
Qed.
Print Assumptions C90_width_text.

(** C90: under a strict setting nothing else is. *)
Theorem C90_strict_width : forall (L : numlib) (ped : pedantry) (a : element) (w : N), strict ped ->
  read_advance L ped a = Ok w <-> exists s, get a "width" = Some s /\ unsigned_text 10 s w /\ w < 2 ^ 64.
Proof.
  intros L ped a w Hp. split.
  - rewrite read_advance_says. intros (s & H & [H1|(_ & H1 & _)]); [|contradiction]. exists s. split; [assumption|].
    apply parse_uint_iff in H1 as [H1 H2]; [|lia]. split; [assumption|]. change (2 ^ 64) with (N.succ u64_max). now apply N.lt_succ_r.
  - intros (s & H1 & H2 & H3). now apply C90_width_text with s.
Qed.
Print Assumptions C90_strict_width.

(** C90: a coordinate is an integer exactly if its text is one between -2^31 and 2^31 - 1;
    a minus sign is allowed there. *)
Theorem C90_integer_text : forall (s : str) (z : Z),
  rust_iof_read s = Some (IInt z) <-> signed_text s z /\ (- 2 ^ 31 <= z < 2 ^ 31)%Z.
Proof.
  intros s z. change (2 ^ 31)%Z with 2147483648%Z. unfold rust_iof_read. destruct (parse_i32 s) as [y|] eqn:E.
  - split.
    + intros [= <-]. apply parse_i32_iff in E as [E1 E2]. split; [assumption|lia].
    + intros [H1 H2]. assert (parse_i32 s = Some z) by (apply parse_i32_iff; split; [assumption|lia]). congruence.
  - split; [destruct (rust_f32_read s); discriminate|]. intros [H1 H2].
    assert (parse_i32 s = Some z) by (apply parse_i32_iff; split; [assumption|lia]). congruence.
Qed.
Print Assumptions C90_integer_text.

(** C90: a text means at most one number. *)
Theorem C90_one_number : forall (radix : N) (s : str) (n m : N), radix <= 16 ->
  unsigned_text radix s n -> unsigned_text radix s m -> n = m.
Proof. intros radix s n m H. now apply unsigned_text_unique. Qed.
Print Assumptions C90_one_number.

(** C90: code points and widths are written with the digits of the number, no sign and no
    needless zero in front. *)
Theorem C90_written_numbers : forall (n : N),
  (exists s, get (codepoint_xml n) "hex" = Some s /\ denotes 16 s n /\ (0 < n -> hd 0 s <> 48) /\ (n = 0 -> s = [48]) /\
     Forall (fun c => 48 <= c <= 57 \/ 65 <= c <= 70) s) /\
  (exists s, get (advance_xml n) "width" = Some s /\ denotes 10 s n /\ (0 < n -> hd 0 s <> 48) /\ (n = 0 -> s = [48])).
Proof.
  intros n. split.
  - exists (show_hex n). split; [reflexivity|]. destruct (show_uint_written 16 n) as (A & B & C); [lia|lia|]. do 3 (split; [assumption|]).
    apply Forall_forall. intros c Hc. apply (show_uint_chars 16 n) in Hc; [exact Hc|lia|lia].
  - exists (show_dec n). split; [reflexivity|]. apply show_uint_written; lia.
Qed.
Print Assumptions C90_written_numbers.

Example C90_case :
  unsigned_text 16 (lit "+00e9") 233 /\ unsigned_text 16 (lit "E9") 233 /\ unsigned_text 10 (lit "0600") 600 /\
  signed_text (lit "-12") (-12) /\ (forall n, ~ unsigned_text 10 (lit "1e3") n) /\ (forall n, ~ unsigned_text 16 (lit "") n) /\
  rust_iof_read (lit "2147483648") = Some (IFloat (fl "2147483648")) /\ rust_iof_read (lit "2147483647") = Some (IInt 2147483647).
Proof.
  split; [apply (parse_uint_iff 16 1000); [lia|reflexivity]|]. split; [apply (parse_uint_iff 16 1000); [lia|reflexivity]|].
  split; [apply (parse_uint_iff 10 1000); [lia|reflexivity]|]. split; [apply parse_i32_iff; reflexivity|].
  split; [intros n H; assert (parse_uint 10 n (lit "1e3") = Some n) as X by (apply parse_uint_iff; [lia|split; [assumption|lia]]); discriminate X|].
  split; [intros n H; assert (parse_uint 16 n (lit "") = Some n) as X by (apply parse_uint_iff; [lia|split; [assumption|lia]]); discriminate X|].
  split; reflexivity.
Qed.

(** C91: reading gives an error exactly if a check fails, and the error is that of the first
    failing check in the order of reading. *)
Theorem C91_first_failure : forall (L : numlib) (PD PL : Type) (pd0 : PD) (P : plistlib PL) (ped : pedantry) (root : element) (e : err),
  read_element L pd0 P ped root = Err e <-> first_failure (document_checks L ped root) e.
Proof. intros. apply read_element_fails. Qed.
Print Assumptions C91_first_failure.

(** C91: a glyph is only given if all checks pass; if all pass the outcome is a glyph, or a
    panic in the conversion of a contour. *)
Theorem C91_all_pass : forall (L : numlib) (PD PL : Type) (pd0 : PD) (P : plistlib PL) (ped : pedantry) (root : element),
  (forall g, read_element L pd0 P ped root = Ok g -> Forall passes (document_checks L ped root)) /\
  (Forall passes (document_checks L ped root) -> (exists g, read_element L pd0 P ped root = Ok g) \/ read_element L pd0 P ped root = Panic).
Proof.
  intros. destruct (read_element_fails L pd0 P ped root) as (_ & H1 & H2 & _). split; [assumption|].
  intros H. specialize (H2 H). destruct (read_element L pd0 P ped root) as [g|e|]; [eauto|exfalso; now apply (H2 e)|auto].
Qed.
Print Assumptions C91_all_pass.

(** C91, C18: so a document panics exactly if every check passes and a contour of its outline
    cannot be converted; else a good document is a glyph. *)
Theorem C91_panics_exactly : forall (L : numlib) (PD PL : Type) (pd0 : PD) (P : plistlib PL) (ped : pedantry) (root : element),
  let broken := exists o ce gps, hd_error (named "outline" root) = Some o /\ In ce (named "contour" o) /\
    mapM (read_point L) (named "point" ce) = Ok gps /\ gps <> [] /\ unreadable gps in
  (read_element L pd0 P ped root = Panic <-> Forall passes (document_checks L ped root) /\ broken) /\
  ((exists g, read_element L pd0 P ped root = Ok g) <-> Forall passes (document_checks L ped root) /\ ~ broken).
Proof.
  intros L PD PL pd0 P ped root broken. pose proof (C91_all_pass L PD PL pd0 P ped root) as [A1 A2].
  assert (forall g, read_element L pd0 P ped root = Ok g -> ~ broken) as NB.
  { intros g Hg (o & ce & gps & H1 & H2 & H3 & H4 & H5). exact (read_ok_readable L pd0 P ped root g o ce gps Hg H1 H2 H3 H4 H5). }
  assert (read_element L pd0 P ped root = Panic -> Forall passes (document_checks L ped root)) as PA by (apply read_element_fails).
  split; split.
  - intros H. split; [now apply PA|]. exact (C18_document_panics L PD PL pd0 P ped root H).
  - intros [H1 H2]. destruct (A2 H1) as [(g & Hg)|H]; [|exact H]. exfalso. exact (NB g Hg H2).
  - intros (g & Hg). split; [exact (A1 g Hg)|exact (NB g Hg)].
  - intros [H1 H2]. destruct (A2 H1) as [H|H]; [exact H|]. exfalso. apply H2. exact (C18_document_panics L PD PL pd0 P ped root H).
Qed.
Print Assumptions C91_panics_exactly.

(** C91: there is one first failure at most. *)
Theorem C91_one_failure : forall (L : numlib) (ped : pedantry) (root : element) (e e' : err),
  first_failure (document_checks L ped root) e -> first_failure (document_checks L ped root) e' -> e = e'.
Proof.
  intros L ped root e e' H H'.
  apply (C91_first_failure L unit unit tt (mkPlist unit (fun _ => PlBad) (fun _ => None))) in H, H'. congruence.
Qed.
Print Assumptions C91_one_failure.

(** Two problems: the bad anchor comes before the bad guideline in the order of reading, not in
    the document. *)
Definition ex_two_problems : element :=
  Element (lit "glyph") [(lit "name", lit "a"); (lit "format", lit "2")]
    [NElem (Element (lit "guideline") [(lit "x", lit "zero")] []);
     NElem (Element (lit "anchor") [(lit "x", lit "1"); (lit "y", lit "up")] [])].
Example C91_case :
  first_failure (document_checks rust_num pedantry_default ex_two_problems) (EInput "<anchor> y not integer/float") /\
  Forall passes (document_checks rust_num pedantry_default ex_doc).
Proof.
  split.
  - apply (C91_first_failure rust_num unit unit tt no_plist). vm_compute. reflexivity.
  - destruct (read_element rust_num tt no_plist pedantry_default ex_doc) as [g| |] eqn:E; [|vm_compute in E; discriminate|vm_compute in E; discriminate].
    exact (proj1 (C91_all_pass rust_num unit unit tt no_plist pedantry_default ex_doc) g E).
Qed.

(** C13: the check without a tolerance uses the f32 closest to one hundredth. *)
Theorem C13_default_tolerance : exists t : f32, rounded32 (1 # 100) t /\
  forall dist (PD : Type) (c : contour PD) (i : nat) (b : bool),
    (exists c', check_smooth dist c i = Ok (c', b)) <-> is_point_smooth_within dist c i t = Ok b.
Proof.
  exists smooth_tolerance. split.
  { apply rounded32_proper with (2 := proj1 (decimal_rounded false 1 (-2))). reflexivity. }
  intros dist PD c i b. unfold check_smooth. split.
  - intros (c' & H). apply bind_ok in H as (b' & H1 & H). apply bind_ok in H as (p & H2 & H). injection H as _ <-. exact H1.
  - intros H. rewrite H. cbn [bind].
    pose proof (smooth_ok_bounds _ _ _ _ _ H) as [_ Hi]. destruct (idx_ok c i Hi) as (p & _ & Hx). rewrite Hx. cbn [bind]. eauto.
Qed.
Print Assumptions C13_default_tolerance.

(** C85: the length of an operation is its number of points. *)
Theorem C85_number_of_points : forall o : penop, penop_len o = List.length (penop_points o).
Proof. intros []; reflexivity. Qed.
Print Assumptions C85_number_of_points.

(** C74: an image cannot be written exactly if its name is not UTF-8; this is an error and
    never a panic. *)
Theorem C74_image_unwritable : forall (L : numlib) (i : glifimage),
  (image_try_xml L i = Err ENotUtf8 <-> exists n, i_filename i = NotUtf8 n) /\
  ((exists s, i_filename i = Utf8 s) <-> exists e, image_try_xml L i = Ok e /\ image_written L i e) /\
  image_try_xml L i <> Panic.
Proof.
  intros L i. unfold image_try_xml. destruct (i_filename i) as [s|s] eqn:E.
  - split; [split; [discriminate|intros (n & H); discriminate]|]. split; [|discriminate]. split; [|eauto]. intros _.
    eexists. split; [reflexivity|]. exists s. split; [assumption|]. unfold leaf, attributes, write_matrix, matrix_attributes. cbn.
    destruct (i_identifier i); split; reflexivity.
  - split; [split; [eauto|reflexivity]|]. split; [|discriminate]. split; [intros (n & H); discriminate|intros (e & H & _); discriminate].
Qed.
Print Assumptions C74_image_unwritable.
