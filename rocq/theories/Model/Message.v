(** The messages of errors: `Display` in src/error.rs, src/error/string.rs, src/error/mfek.rs. *)
Require Import Coq.Strings.String Coq.Lists.List Coq.NArith.NArith Coq.Arith.Arith.
Require Import Verif.Model.Base Verif.Model.Text.
Import ListNotations.
Local Open Scope string_scope.
Local Open Scope list_scope.

(** `{}` of a `usize`, src/error.rs L83. *)
Definition show_nat (n : nat) : str := show_dec (N.of_nat n).

(** `{:?}` of a PointType (derived), src/point.rs L46-63. *)
Definition ptype_debug (t : ptype) : string :=
  match t with
  | Undefined => "Undefined" | Move => "Move" | Curve => "Curve" | QCurve => "QCurve"
  | QClose => "QClose" | Line => "Line" | OffCurve => "OffCurve"
  end.

(** `{:?}` of a control character: short escapes for four of them, otherwise the number in small
    hexadecimal digits.  src/error/string.rs L3.  Simplification: other characters, which are never
    reported, are escaped like that too. *)
Definition char_debug (c : N) : str :=
  [39%N] ++
  (if (c =? 0)%N then lit "\0" else if (c =? 9)%N then lit "\t" else if (c =? 10)%N then lit "\n"
   else if (c =? 13)%N then lit "\r" else lit "\u{" ++ map ascii_lower (show_hex c) ++ lit "}") ++ [39%N].

(** The text in `GlifComponentsCyclical`, src/component.rs L319-322. *)
Definition cyclical_text (base from root : str) : str :=
  lit "in glif " ++ base ++ lit ", " ++ from ++ lit " refers to " ++ base ++ lit " (trying to flatten " ++ root ++ lit ")".

(** What stands after "glifparser error: ", src/error.rs L77-151.  [detail] is the text that other
    crates and the operating system give for the error ([None] where there is none). *)
Definition report (detail : str) (e : err) : option str :=
  match e with
  | EFileIo => Some (lit "System error when loading glif file: " ++ detail)
  | EOutlineBadPointType ci pi t =>
      Some (lit "Bad point type " ++ lit (ptype_debug t) ++ lit " in outline @(" ++ show_nat ci ++ lit ", " ++ show_nat pi ++ lit "))")
  | EContourBadPointType pi t =>
      Some (lit "Bad point type " ++ lit (ptype_debug t) ++ lit " in contour @" ++ show_nat pi ++ lit ")")
  | EFilenameNotSet s => Some (lit "Glyph filename not set: " ++ s)
  | EFilenameInsane s => Some (lit "Glyph filename not sane: " ++ lit s)
  | ENotUtf8 => Some (lit "Glyph not utf-8")
  | ECyclical base from root => Some (lit "Glyph components are cyclical: " ++ cyclical_text base from root)
  | ELib => Some (lit "Glif <lib> invalid")
  | EXmlParse | EXmlWrite => Some (lit "XML error: " ++ detail)
  | EPedantic s => Some (lit "XML error (requested pedantry, would not normally be an error): " ++ lit s)
  | EInput s => Some (lit "Glif format spec error: " ++ lit s)
  | EImageNotLoaded => Some (lit "Tried to access data for image whose data hasn't been loaded")
  | EImageNotPNG => Some (lit "Image not formatted as PNG. The glif file format only supports PNG. If you want to support other types, you have to work on the data yourself.")
  | EImageNotDecodable => Some (lit "Image not decodable")
  | EImageIo => Some (lit "System error when loading image: " ++ detail)
  | EColorNotRGBA => Some (lit "Color not RGBA")
  | ETypeConversion ty variant => Some (lit "Type conversion error: " ++ variant ++ lit " not in " ++ lit ty)
  | EIdxOutOfBounds i len =>
      Some (lit "The point index " ++ show_nat i ++ lit " is out of bounds as self.len() == " ++ show_nat len)
  | ELenOne => Some (lit "On a contour of length one, there's no previous/next point")
  | ELenZero => Some (lit "On an empty invalid contour (len == 0), there's no previous/next point")
  | ENoPrevious n => Some (lit "Asked for previous index of 0 on an open contour (len " ++ show_nat n ++ lit ")")
  | ENoNext n => Some (lit "Asked for next index of last point, " ++ show_nat n ++ lit ", on an open contour")
  | EControlChar _ _ | EStrLenZero | EMoreContoursThanOps | EMoreOpsThanContours | EMoreLayersThanVecOps
  | EMoreVecOpsThanLayers => None
  end.
(** The two texts of an UpgradeContourOpsError, src/error/mfek.rs L18-23. *)
Definition more_than (e : err) : option (string * string) :=
  match e with
  | EMoreContoursThanOps => Some ("contours in outline", "contour operations in list")
  | EMoreOpsThanContours => Some ("contour operations in list", "contours in outline")
  | EMoreLayersThanVecOps => Some ("layers in glyph", "lists of contour operations in list")
  | EMoreVecOpsThanLayers => Some ("lists of contour operations in list", "layers in glyph")
  | _ => None
  end.
(** The message of an error.  src/error.rs L75-153, src/error/string.rs L1-10, src/error/mfek.rs L16-30. *)
Definition message (detail : str) (e : err) : str :=
  match report detail e with
  | Some s => lit "glifparser error: " ++ s
  | None =>
      match more_than e with
      | Some (over, under) =>
          lit "Mismatch while upgrading contour ops: more " ++ lit over ++ lit " than " ++ lit under ++ lit "!"
      | None =>
          match e with
          | EControlChar i c => lit "String has control character `" ++ char_debug c ++ lit "` at position " ++ show_nat i
          | _ => lit "String is zero-length"
          end
      end
  end.
