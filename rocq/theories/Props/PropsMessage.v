(** Error messages. *)
Require Import Coq.Strings.String Coq.Lists.List Coq.NArith.NArith Coq.Arith.Arith Coq.micromega.Lia.
Require Import Verif.Model.Base Verif.Model.Text Verif.Model.Message Verif.Spec.TextSpec Verif.Spec.MessageSpec
  Verif.Facts.TextFacts Verif.Facts.DigitFacts Verif.Facts.MessageFacts.
Import ListNotations.
Local Open Scope string_scope.
Local Open Scope list_scope.

(** C101: two errors with the same message are the same error, with the same indices, names and texts;
    the exceptions are errors of reading and of writing XML, and cycles. *)
Theorem C101_message_tells_error : forall (d d' : str) (e e' : err), made e -> made e' -> message d e = message d' e' ->
  (e = e' \/ (about_xml e /\ about_xml e') \/ (about_cycles e /\ about_cycles e')) /\ (from_elsewhere e -> d = d').
Proof. exact same_message. Qed.
Print Assumptions C101_message_tells_error.

(** C101: those are exceptions: reading and writing give the same message, and one message can stand for
    two cycles if names contain commas and blanks. *)
Theorem C101_message_tells_error_refuted :
  (forall d, message d EXmlParse = message d EXmlWrite) /\
  (exists b f r b' f' r', message [] (ECyclical b f r) = message [] (ECyclical b' f' r') /\ b <> b' /\ f <> f' /\ r <> r').
Proof.
  split; [reflexivity|].
  exists (lit "a"), (lit "x, y refers to a, x (trying to flatten q"), (lit "r").
  exists (lit "a, x"), (lit "y"), (lit "q refers to a (trying to flatten r"). split; [vm_compute; reflexivity|].
  repeat split; discriminate.
Qed.
Print Assumptions C101_message_tells_error_refuted.

(** C101: the numbers in a message: which is which. *)
Theorem C101_numbers : forall (d : str) (i n : nat) (t : ptype) (c : N),
  exists si sn, denotes 10 si (N.of_nat i) /\ denotes 10 sn (N.of_nat n) /\
  message d (EIdxOutOfBounds i n) = lit "glifparser error: The point index " ++ si ++ lit " is out of bounds as self.len() == " ++ sn /\
  message d (EOutlineBadPointType i n t) =
    lit "glifparser error: Bad point type " ++ lit (ptype_debug t) ++ lit " in outline @(" ++ si ++ lit ", " ++ sn ++ lit "))" /\
  message d (EContourBadPointType i t) =
    lit "glifparser error: Bad point type " ++ lit (ptype_debug t) ++ lit " in contour @" ++ si ++ lit ")" /\
  message d (ENoPrevious n) = lit "glifparser error: Asked for previous index of 0 on an open contour (len " ++ sn ++ lit ")" /\
  message d (ENoNext n) = lit "glifparser error: Asked for next index of last point, " ++ sn ++ lit ", on an open contour" /\
  message d (EControlChar i c) = lit "String has control character `" ++ char_debug c ++ lit "` at position " ++ si.
Proof.
  intros d i n t c. exists (show_dec (N.of_nat i)), (show_dec (N.of_nat n)).
  destruct (show_uint_written 10 (N.of_nat i)) as [A _]; [lia|lia|].
  destruct (show_uint_written 10 (N.of_nat n)) as [B _]; [lia|lia|].
  do 2 (split; [assumption|]). repeat split; reflexivity.
Qed.
Print Assumptions C101_numbers.

(** C101: the message of an upgrade that fails names first what there is more of. *)
Theorem C101_more_than : forall d,
  message d EMoreContoursThanOps = lit "Mismatch while upgrading contour ops: more contours in outline than contour operations in list!" /\
  message d EMoreOpsThanContours = lit "Mismatch while upgrading contour ops: more contour operations in list than contours in outline!" /\
  message d EMoreLayersThanVecOps = lit "Mismatch while upgrading contour ops: more layers in glyph than lists of contour operations in list!" /\
  message d EMoreVecOpsThanLayers = lit "Mismatch while upgrading contour ops: more lists of contour operations in list than layers in glyph!".
Proof. intros d. repeat split; reflexivity. Qed.
Print Assumptions C101_more_than.

(** C101: the text, name or detail of an error is the end of its message. *)
Theorem C101_texts : forall (d s : str) (t : string),
  message d (EFilenameNotSet s) = lit "glifparser error: Glyph filename not set: " ++ s /\
  message d (EFilenameInsane t) = lit "glifparser error: Glyph filename not sane: " ++ lit t /\
  message d (EInput t) = lit "glifparser error: Glif format spec error: " ++ lit t /\
  message d (EPedantic t) = lit "glifparser error: XML error (requested pedantry, would not normally be an error): " ++ lit t /\
  message d (ETypeConversion t s) = lit "glifparser error: Type conversion error: " ++ s ++ lit " not in " ++ lit t /\
  (forall e, from_elsewhere e -> exists o, message d e = o ++ d /\ forall d', message d' e = o ++ d').
Proof.
  intros d s t. repeat (split; [reflexivity|]). intros e [-> | [-> | [-> | ->]]]; eexists; (split; [|intros d']);
    unfold message, report; rewrite app_assoc; reflexivity.
Qed.
Print Assumptions C101_texts.

(** C101: the messages of the other errors; only those of errors that come from elsewhere have the detail. *)
Theorem C101_fixed : forall d,
  message d ENotUtf8 = lit "glifparser error: Glyph not utf-8" /\
  message d ELib = lit "glifparser error: Glif <lib> invalid" /\
  message d EImageNotLoaded = lit "glifparser error: Tried to access data for image whose data hasn't been loaded" /\
  message d EImageNotPNG = lit "glifparser error: Image not formatted as PNG. The glif file format only supports PNG. If you want to support other types, you have to work on the data yourself." /\
  message d EImageNotDecodable = lit "glifparser error: Image not decodable" /\
  message d EColorNotRGBA = lit "glifparser error: Color not RGBA" /\
  message d ELenOne = lit "glifparser error: On a contour of length one, there's no previous/next point" /\
  message d ELenZero = lit "glifparser error: On an empty invalid contour (len == 0), there's no previous/next point" /\
  message d EStrLenZero = lit "String is zero-length" /\
  message d EFileIo = lit "glifparser error: System error when loading glif file: " ++ d /\
  message d EXmlParse = lit "glifparser error: XML error: " ++ d /\
  message d EImageIo = lit "glifparser error: System error when loading image: " ++ d.
Proof. intros d. repeat split; reflexivity. Qed.
Print Assumptions C101_fixed.

(** C101: the names in the message of a cycle, those of types of points, and how a control
    character is shown. *)
Theorem C101_names : forall (d base from root : str) (i : nat) (c : N),
  message d (ECyclical base from root) = lit "glifparser error: Glyph components are cyclical: in glif " ++ base ++ lit ", " ++ from ++
    lit " refers to " ++ base ++ lit " (trying to flatten " ++ root ++ lit ")" /\
  map (fun t => message d (EContourBadPointType 0 t)) [Undefined; Move; Curve; QCurve; QClose; Line; OffCurve] =
    map (fun n => lit "glifparser error: Bad point type " ++ lit n ++ lit " in contour @0)")
      ["Undefined"; "Move"; "Curve"; "QCurve"; "QClose"; "Line"; "OffCurve"] /\
  exists si t, denotes 10 si (N.of_nat i) /\ message d (EControlChar i c) = lit "String has control character `'" ++ t ++ lit "'` at position " ++ si /\
    ((c = 0 /\ t = lit "\0") \/ (c = 9 /\ t = lit "\t") \/ (c = 10 /\ t = lit "\n") \/ (c = 13 /\ t = lit "\r") \/
     (~ In c [0; 9; 10; 13] /\ exists h, denotes 16 h c /\ hd 0 h <> 48 /\ (forall x, In x h -> 48 <= x <= 57 \/ 97 <= x <= 102) /\
        t = lit "\u{" ++ h ++ lit "}"))%N.
Proof.
  intros d base from root i c. split; [|split].
  - cbn [message report]. unfold cyclical_text. rewrite !app_assoc. reflexivity.
  - reflexivity.
  - destruct (show_uint_written 10 (N.of_nat i)) as [A _]; [lia|lia|].
    destruct (show_uint_written 16 c) as (B & B2 & _); [lia|lia|].
    assert (M : forall t, char_debug c = [39%N] ++ t ++ [39%N] ->
      message d (EControlChar i c) = lit "String has control character `'" ++ t ++ lit "'` at position " ++ show_dec (N.of_nat i)).
    { intros t T. unfold message, report. rewrite T, <- !app_assoc. reflexivity. }
    exists (show_dec (N.of_nat i)).
    destruct (N.eqb_spec c 0) as [->|C0]; [exists (lit "\0"); split; [exact A|]; split; [apply M; reflexivity|tauto]|].
    destruct (N.eqb_spec c 9) as [->|C1]; [exists (lit "\t"); split; [exact A|]; split; [apply M; reflexivity|tauto]|].
    destruct (N.eqb_spec c 10) as [->|C2]; [exists (lit "\n"); split; [exact A|]; split; [apply M; reflexivity|tauto]|].
    destruct (N.eqb_spec c 13) as [->|C3]; [exists (lit "\r"); split; [exact A|]; split; [apply M; reflexivity|tauto]|].
    exists (lit "\u{" ++ map ascii_lower (show_hex c) ++ lit "}"). split; [exact A|]. split.
    + apply M. unfold char_debug.
      rewrite (proj2 (N.eqb_neq _ _) C0), (proj2 (N.eqb_neq _ _) C1), (proj2 (N.eqb_neq _ _) C2), (proj2 (N.eqb_neq _ _) C3). reflexivity.
    + do 4 right. split; [cbn [In]; intuition congruence|]. exists (map ascii_lower (show_hex c)).
      split; [now apply denotes_lower|]. split; [|split; [|reflexivity]].
      * unfold show_hex. assert (P : (0 < c)%N) by lia. specialize (B2 P). revert B2.
        destruct (show_uint 16 c) as [|x l] eqn:E; [now cbn|]. cbn [hd map]. intros X Y. apply X. revert Y. unfold ascii_lower.
        destruct (N.leb_spec 65 x), (N.leb_spec x 90); cbn [andb]; lia.
      * intros x X. apply in_map_iff in X as (y & <- & Y). apply show_uint_chars in Y; [|lia|lia]. unfold is_digit_char in Y.
        unfold ascii_lower. destruct (N.leb_spec 65 y), (N.leb_spec y 90); cbn [andb]; lia.
Qed.
Print Assumptions C101_names.

Example C101_case : made (ETypeConversion "JoinType" (lit "bevelled")) /\ made (EControlChar 3 7) /\
  message [] (EControlChar 3 7) = lit "String has control character `'\u{7}'` at position 3" /\
  message [] (ECyclical (lit "a") (lit "b") (lit "a")) =
    lit "glifparser error: Glyph components are cyclical: in glif a, b refers to a (trying to flatten a)".
Proof. split; [now left|]. split; [left; lia|]. split; vm_compute; reflexivity. Qed.
