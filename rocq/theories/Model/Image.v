(** Images and their loading states.  src/image.rs. *)
Require Import Coq.Lists.List Coq.NArith.NArith Coq.ZArith.ZArith Coq.Bool.Bool Coq.Strings.String.
Require Import Verif.Model.Base Verif.Model.Text Verif.Model.Float Verif.Model.Num Verif.Model.Names
  Verif.Model.Color Verif.Model.Parts Verif.Model.Component.
Import ListNotations.
Local Open Scope N_scope.

(** src/image.rs L22-33 *)
Inductive load_state := NotTried | TriedAndFailed | Loaded | LoadedDecodeFailed | Decoded.
(** src/image.rs L36-40 *)
Inductive data_or_bitmap := Data (v : list N) | Bitmap (pixels : list N) (width height : N).
(** src/image.rs L109-117 *)
Inductive codec := CUnknown | CPNG | CJPEG | CTIFF | CGIF | CWebP | CBMP.

(** src/image.rs L43-48 *)
Definition unwrap_data (d : data_or_bitmap) : res (list N) :=
  match d with Data v => Ok v | Bitmap _ _ _ => Panic end.

(** src/image.rs L65-82: at least twelve bytes are needed (`chunks(12).next()`). *)
Definition guess_codec_bytes (v : list N) : codec :=
  match v with
  | b0 :: b1 :: b2 :: b3 :: _ :: _ :: _ :: _ :: b8 :: b9 :: b10 :: b11 :: _ =>
      if (b0 =? 0x42) && (b1 =? 0x4D) then CBMP
      else if (b0 =? 0xFF) && (b1 =? 0xD8) then CJPEG
      else if (b0 =? 0x89) && (b1 =? 0x50) && (b2 =? 0x4E) && (b3 =? 0x47) then CPNG
      else if (b0 =? 0x47) && (b1 =? 0x49) && (b2 =? 0x46) && (b3 =? 0x38) then CGIF
      else if (b0 =? 0x49) && (b1 =? 0x49) && (b2 =? 0x2A) && (b3 =? 0x00) then CTIFF
      else if (b0 =? 0x4D) && (b1 =? 0x4D) && (b2 =? 0x00) && (b3 =? 0x2A) then CTIFF
      else if (b0 =? 0x52) && (b1 =? 0x49) && (b2 =? 0x46) && (b3 =? 0x46)
              && (b8 =? 0x57) && (b9 =? 0x45) && (b10 =? 0x42) && (b11 =? 0x50) then CWebP
      else CUnknown
  | _ => CUnknown
  end.
(** src/image.rs L65-82. *)
Definition guess_codec (d : data_or_bitmap) : res codec :=
  let* v := unwrap_data d in Ok (guess_codec_bytes v).

(** src/image.rs L52-55, L100-106; the color only acts through [tint] below. *)
Record image := mkImg {
  im_filename : path; im_data : data_or_bitmap; im_state : load_state; im_codec : codec;
  im_matrix : affine; im_color : option color
}.

(** kurbo `Affine::IDENTITY`
    src/image.rs L185. *)
Definition affine_identity : affine :=
  mkAffine (f64_of_Z 1%Z) pos_zero pos_zero (f64_of_Z 1%Z) pos_zero pos_zero.

(** src/image.rs L180-188 (with L58-63) *)
Definition image_new (fn : path) : image := mkImg fn (Data []) NotTried CUnknown affine_identity None.

(** The external crate `image`: failure to guess the format, guessed format is PNG, decoding to
    RGBA pixels, width and height, either directly or through grey; and `u8 * IntegerOrFloat`
    converted to u8 (external crate `integer_or_float`).
    src/image.rs L211-240. *)
Record decoder := mkDecoder {
  format_io_error : list N -> bool;
  format_is_png : list N -> bool;
  decode_rgba : list N -> option (list N * N * N);
  decode_grey : list N -> option (list N * N * N);
  channel_mul : N -> iof -> N
}.

(** src/image.rs L229-234: `chunks_mut(4)`; indexing panics in a last chunk that is not full. *)
Fixpoint tint (mul : N -> iof -> N) (c : color) (pixels : list N) : res (list N) :=
  match pixels with
  | [] => Ok []
  | p0 :: p1 :: p2 :: p3 :: t =>
      let* t := tint mul c t in
      Ok (mul p0 (cr c) :: mul p1 (cg c) :: mul p2 (cb c) :: mul p3 (ca c) :: t)
  | _ => Panic
  end.
(** src/image.rs L222-238 *)
Definition decode_bytes (D : decoder) (raw : list N) (o : option color) : res (option (list N * N * N)) :=
  match o with
  | None => Ok (decode_rgba D raw)
  | Some c =>
      match decode_grey D raw with
      | None => Ok None
      | Some (px, w, h) => let* px := tint (channel_mul D) c px in Ok (Some (px, w, h))
      end
  end.

(** src/image.rs L190-198; returns the outcome and the image after the call.  [disk] is
    `fs::read`. *)
Definition load (disk : path -> option (list N)) (i : image) : res unit * image :=
  match disk (im_filename i) with
  | None => (Err EImageIo, mkImg (im_filename i) (im_data i) TriedAndFailed (im_codec i) (im_matrix i) (im_color i))
  | Some v => (Ok tt, mkImg (im_filename i) (Data v) Loaded (guess_codec_bytes v) (im_matrix i) (im_color i))
  end.

(** src/image.rs L200-207 *)
Definition data (i : image) : res (list N) :=
  match im_state i with
  | NotTried => Err EImageNotLoaded
  | TriedAndFailed => Err EImageIo
  | Loaded => unwrap_data (im_data i)
  | _ => Panic                                       (* unimplemented! *)
  end.

(** Assignment to `self.data.state`, src/image.rs L190-240. *)
Definition with_state (i : image) (s : load_state) : image :=
  mkImg (im_filename i) (im_data i) s (im_codec i) (im_matrix i) (im_color i).

(** src/image.rs L211-243; [more] is the feature `more-image-formats`. *)
Definition decode (D : decoder) (more : bool) (i : image) : res unit * image :=
  match im_data i with
  | Bitmap _ _ _ => (Err EImageIo, i)
  | Data raw =>
      if format_io_error D raw then (Err EImageIo, i)
      else if negb more && negb (format_is_png D raw) then (Err EImageNotPNG, with_state i LoadedDecodeFailed)
      else
        match decode_bytes D raw (im_color i) with
        | Panic => (Panic, i)
        | Err e => (Err e, i)
        | Ok None => (Err EImageNotDecodable, with_state i LoadedDecodeFailed)
        | Ok (Some (px, w, h)) =>
            (Ok tt, mkImg (im_filename i) (Bitmap px w h) Decoded (im_codec i) (im_matrix i) (im_color i))
        end
  end.

(** src/image.rs L172-178 *)
Definition image_of_file (disk : path -> option (list N)) (fn : path) : res image :=
  let '(r, i) := load disk (image_new fn) in
  let* _ := r in Ok i.

(** src/image.rs L158-169.  *)
Definition to_image_of (disk : path -> option (list N)) (gi : glifimage)
  (glif_filename : option path) (glif_name : str) : res image :=
  let* p := ok_or glif_filename (EFilenameNotSet glif_name) in
  let* dir := ok_or (path_parent p) (EFilenameInsane "Failed to parent") in
  let fn := path_push (path_push (path_push dir (path_of (lit ".."))) (path_of (lit "images"))) (path_of (os_text (i_filename gi))) in
  let '(r, i) := load disk (image_new fn) in
  let* _ := r in
  Ok (mkImg (im_filename i) (im_data i) (im_state i) (im_codec i) (affine_of_matrix (i_matrix gi)) (i_color gi)).
