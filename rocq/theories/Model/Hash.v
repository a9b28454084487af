(** Hashing: what a derived `Hash` gives to the hasher, call by call, for the types of the crate that
    derive it.  A derived `hash` hashes the fields in order; an enum first hashes its discriminant.
    src/point.rs L19-26, L48-64, L162-169, src/component.rs L26-37, src/outline.rs L31-35,
    src/outline/contour.rs L13-17, src/glif/mfek/inner/mod.rs L172-177. *)
Require Import Coq.Lists.List Coq.NArith.NArith Coq.ZArith.ZArith Coq.Bool.Bool.
Require Import Verif.Model.Base Verif.Model.Text Verif.Model.Num Verif.Model.Point Verif.Model.Contour Verif.Model.Names Verif.Model.Color
  Verif.Model.Parts Verif.Model.Mfek Verif.Model.Serde Verif.Model.Equal.
Import ListNotations.

(** A call of the hasher: `write_usize`, `write_isize`, `write_i8`, `write_u8`, `write`, as made for
    src/point.rs L19-26, L162.  Simplification: a text is written character by character, not as its UTF-8;
    where one `write` ends and the next begins is not kept. *)
Inductive word := WUsize (n : nat) | WIsize (z : Z) | WI8 (z : Z) | WU8 (n : N) | WChar (c : N).

(** `bool`, src/point.rs L23 *)
Definition hash_bool (b : bool) : list word := [WU8 (if b then 1 else 0)].
(** `String`, src/component.rs L28: the text and a byte that no text has. *)
Definition hash_str (s : str) : list word := map WChar s ++ [WU8 255].
(** `Option`, src/point.rs L24: which of the two, and the value. *)
Definition hash_opt {A} (h : A -> list word) (o : option A) : list word :=
  match o with None => [WIsize 0] | Some x => WIsize 1 :: h x end.
(** `Vec`, src/outline.rs L33: how many, and each. *)
Definition hash_vec {A} (h : A -> list word) (l : list A) : list word := WUsize (length l) :: flat_map h l.

(** src/point.rs L48-64 *)
Definition hash_ptype (t : ptype) : list word :=
  [WIsize (match t with Undefined => 0 | Move => 1 | Curve => 2 | QCurve => 3 | QClose => 4 | Line => 5 | OffCurve => 6 end)].
(** src/point.rs L162-169; the discriminant is an i8. *)
Definition hash_which (w : which) : list word := [WI8 (match w with Neither => -1 | WA => 0 | WB => 1 end)].
(** src/outline/contour.rs L13-17 *)
Definition hash_end (e : cend) : list word := [WIsize (match e with Head => 0 | Tail => 1 end)].
(** src/glif/mfek/inner/mod.rs L172-177 *)
Definition hash_inner_type (t : inner_type) : list word := [WIsize (match t with TCubic => 0 | TQuad => 1 | THyper => 2 end)].

Section Hash.
(** Simplification: the hash of numbers (crate integer_or_float) and of paths (standard library) are parameters. *)
Context (num_hash : iof -> list word) (path_hash : path -> list word).

(** src/point.rs L19-26 *)
Definition hash_glifpoint (p : glifpoint) : list word :=
  num_hash (gx p) ++ num_hash (gy p) ++ hash_bool (gsmooth p) ++ hash_opt hash_str (gname p) ++ hash_ptype (gptype p).
(** src/component.rs L26-37 *)
Definition hash_component (c : glifcomponent) : list word :=
  hash_str (c_base c) ++ hash_opt path_hash (c_filename c) ++
  num_hash (m_xScale (c_matrix c)) ++ num_hash (m_xyScale (c_matrix c)) ++ num_hash (m_yxScale (c_matrix c)) ++
  num_hash (m_yScale (c_matrix c)) ++ num_hash (m_xOffset (c_matrix c)) ++ num_hash (m_yOffset (c_matrix c)) ++
  hash_opt hash_str (c_identifier c).
(** src/outline.rs L31-35 *)
Definition hash_glifoutline (o : glifoutline) : list word :=
  hash_vec (hash_vec hash_glifpoint) (go_contours o) ++ hash_vec hash_component (go_components o).
End Hash.

(** * `==` of the types that Equal.v does not have *)

(** src/point.rs L19-26 *)
Definition glifpoint_eqb (L : numlib) (p q : glifpoint) : bool :=
  iof_eqb L (gx p) (gx q) && iof_eqb L (gy p) (gy q) && Bool.eqb (gsmooth p) (gsmooth q) &&
  opt_eqb str_eqb (gname p) (gname q) && ptype_eqb (gptype p) (gptype q).
(** src/outline.rs L31-35 *)
Definition glifoutline_eqb (L : numlib) (a b : glifoutline) : bool :=
  list_eqb (list_eqb (glifpoint_eqb L)) (go_contours a) (go_contours b) && list_eqb (component_eqb L) (go_components a) (go_components b).
