(** Magic numbers; histories of an image. *)
Require Import Coq.Lists.List Coq.NArith.NArith Coq.Arith.Arith Coq.Bool.Bool.
Require Import Verif.Model.Base Verif.Model.Num Verif.Model.Names Verif.Model.Color Verif.Model.Component Verif.Model.Image.
Import ListNotations.
Local Open Scope N_scope.

(** The bytes v have the given bytes at the given offset. *)
Definition has_at (v : list N) (off : nat) (l : list N) : Prop :=
  firstn (length l) (skipn off v) = l.
(** Magic numbers of the formats. *)
Definition magic (c : codec) (v : list N) : Prop :=
  match c with
  | CBMP => has_at v 0 [66; 77]                                        (* "BM" *)
  | CJPEG => has_at v 0 [255; 216]
  | CPNG => has_at v 0 [137; 80; 78; 71]                               (* 0x89 "PNG" *)
  | CGIF => has_at v 0 [71; 73; 70; 56]                                (* "GIF8" *)
  | CTIFF => has_at v 0 [73; 73; 42; 0] \/ has_at v 0 [77; 77; 0; 42]  (* "II*\0", "MM\0*" *)
  | CWebP => has_at v 0 [82; 73; 70; 70] /\ has_at v 8 [87; 69; 66; 80] (* "RIFF", "WEBP" *)
  | CUnknown => False
  end.

(** A history: loading with a given outcome of reading the file, and decoding. *)
Inductive call := CallLoad (r : option (list N)) | CallDecode.
Definition do_call (D : decoder) (more : bool) (i : image) (c : call) : res unit * image :=
  match c with
  | CallLoad r => load (fun _ => r) i
  | CallDecode => decode D more i
  end.
(** A call that panics ends the history. *)
Fixpoint run (D : decoder) (more : bool) (i : image) (h : list call) : res image :=
  match h with
  | [] => Ok i
  | c :: h =>
      match do_call D more i c with
      | (Panic, _) => Panic
      | (_, i) => run D more i h
      end
  end.

(** The bytes of the last successful load (none at first), and whether decoding was tried
    since. *)
Definition seen (s : list N * bool) (c : call) : list N * bool :=
  match c with
  | CallLoad (Some v) => (v, false)
  | CallLoad None => s
  | CallDecode => (fst s, true)
  end.
Definition history (h : list call) : list N * bool := fold_left seen h ([], false).

(** What the decoder makes of some bytes. *)
Definition decodes_to (D : decoder) (more : bool) (o : option color) (v : list N) : option (list N * N * N) :=
  if format_io_error D v then None
  else if more || format_is_png D v then
    match decode_bytes D v o with Ok r => r | _ => None end
  else None.

(** A decoder whose pixels are four bytes each. *)
Definition rgba8 (D : decoder) : Prop :=
  forall v px w h, decode_grey D v = Some (px, w, h) -> exists n, length px = (4 * n)%nat.
