(** Conversions to and from the types of other crates, and whole-glyph conversions and files.
    src/point/valid.rs, src/point/conv/, src/matrix/skia.rs, src/image.rs, src/guideline.rs,
    src/color.rs, src/point.rs, src/glif/conv.rs, src/glif/write.rs, src/component.rs. *)
Require Import Coq.Lists.List Coq.NArith.NArith Coq.ZArith.ZArith Coq.Bool.Bool Coq.Strings.String.
Require Import Verif.Model.Base Verif.Model.Text Verif.Model.Float Verif.Model.Num Verif.Model.Point
  Verif.Model.Contour Verif.Model.Refigure Verif.Model.Names Verif.Model.Pedantry Verif.Model.Color Verif.Model.Xml
  Verif.Model.Parts Verif.Model.Read Verif.Model.Write Verif.Model.Component Verif.Model.Mpoint Verif.Model.Mfek
  Verif.Model.Kurbo Verif.Model.Skia.
Import ListNotations.

(** * Positions *)
(** kurbo::Point (external crate): two f64.
    src/point/conv/kurbo.rs L4-9. *)
Record kpoint := mkKP { kx : f64; ky : f64 }.

(** src/point/valid.rs L14-26: `PointLike` as its four required methods (L15-18); L19-25 are
    the provided ones. *)
Record pointlike {T : Type} := mkPL {
  pl_x : T -> iof; pl_y : T -> iof; pl_set_x : T -> iof -> T; pl_set_y : T -> iof -> T
}.
Arguments pointlike : clear implicits.
(** src/point/valid.rs L19. *)
Definition x32 {T} (P : pointlike T) (p : T) : f32 := f32_of_iof (pl_x P p).
(** src/point/valid.rs L20. *)
Definition y32 {T} (P : pointlike T) (p : T) : f32 := f32_of_iof (pl_y P p).
(** src/point/valid.rs L21. *)
Definition x64 {T} (P : pointlike T) (p : T) : f64 := f64_of_iof (pl_x P p).
(** src/point/valid.rs L22. *)
Definition y64 {T} (P : pointlike T) (p : T) : f64 := f64_of_iof (pl_y P p).
(** Also src/point/conv/kurbo.rs L4-8. *)
Definition as_kpoint {T} (P : pointlike T) (p : T) : kpoint := mkKP (x64 P p) (y64 P p).

(** src/point/valid.rs L59-72 *)
Definition point_like (L : numlib) (PD : Type) : pointlike (point PD) :=
  mkPL _ (fun p => iof_of_f32 L (px p)) (fun p => iof_of_f32 L (py p))
    (fun p i => with_xy p (f32_of_iof i) (py p)) (fun p i => with_xy p (px p) (f32_of_iof i)).
(** src/point/valid.rs L99-112 *)
Definition glifpoint_like : pointlike glifpoint :=
  mkPL _ gx gy
    (fun g i => mkGP i (gy g) (gsmooth g) (gname g) (gptype g))
    (fun g i => mkGP (gx g) i (gsmooth g) (gname g) (gptype g)).
(** src/point/conv/skia.rs L35-48 *)
Definition skpoint_like : pointlike skpoint :=
  mkPL _ (fun p => IFloat (fst p)) (fun p => IFloat (snd p))
    (fun p i => (f32_of_iof i, snd p)) (fun p i => (fst p, f32_of_iof i)).

(** src/outline/quad_to_cubic.rs L8-19: three points of any `PointLike` type become four; [dflt] is
    the `Default` of the type, L11, of which both positions are set. *)
Definition elevate {T} (L : numlib) (P : pointlike T) (dflt p0 p1 p2 : T) : T * T * T * T :=
  let coords := quad_to_cubic_coords (iof_add L) (iof_sub L) (iof_rmul L two_thirds32) in
  let '(_, x1, x2, _) := coords (pl_x P p0) (pl_x P p1) (pl_x P p2) in
  let '(_, y1, y2, _) := coords (pl_y P p0) (pl_y P p1) (pl_y P p2) in
  (p0, pl_set_y P (pl_set_x P dflt x1) y1, pl_set_y P (pl_set_x P dflt x2) y2, p2).
(** `GlifPoint::default()`, src/point.rs L19. *)
Definition gp_default (L : numlib) : glifpoint := mkGP (iof_default L) (iof_default L) false None OffCurve.

(** src/point/conv/skia.rs L11-15 *)
Definition kurbo_of_sk (p : skpoint) : kpoint := mkKP (f64_of_f32 (fst p)) (f64_of_f32 (snd p)).
(** src/point/conv/skia.rs L17-27 *)
Definition sk_of_kurbo (k : kpoint) : skpoint := (f32_of_f64 (kx k), f32_of_f64 (ky k)).
(** src/point/conv/skia.rs L29-33 *)
Definition sk_is_valid (p : skpoint) : bool := negb (is_nan (fst p)) && negb (is_nan (snd p)).
(** src/point/conv/kurbo.rs L18-26 *)
Definition gp_from_kurbo (L : numlib) (k : kpoint) (t : ptype) : glifpoint :=
  gp_from_x_y_type L (f32_of_f64 (kx k)) (f32_of_f64 (ky k)) t.
(** src/point/conv/kurbo.rs L23-25. *)
Definition gp_from_kurbo_offcurve (L : numlib) (k : kpoint) : glifpoint := gp_from_kurbo L k OffCurve.

(** * Matrices *)
(** `[T; 6]`: PostScript order (skia's `from_affine`, kurbo's `as_coeffs`, `Affine::new`).
    src/matrix/skia.rs L18-34. *)
Definition six (T : Type) := (T * T * T * T * T * T)%type.
(** src/matrix/skia.rs L20, src/image.rs L147. *)
Definition as_coeffs (m : affine) : six f64 := (c0 m, c1 m, c2 m, c3 m, c4 m, c5 m).
(** src/matrix/skia.rs L20, L26. *)
Definition six_to_f32 (s : six f64) : six f32 :=
  let '(a, b, c, d, e, f) := s in
  (f32_of_f64 a, f32_of_f64 b, f32_of_f64 c, f32_of_f64 d, f32_of_f64 e, f32_of_f64 f).
(** src/matrix/skia.rs L24-34.  Simplification: a skia matrix is the six numbers given to
    `Matrix::from_affine`. *)
Definition sk_matrix_of_f32s (s : six f32) : six f32 := s.
(** src/matrix/skia.rs L24-28. *)
Definition sk_matrix_of_f64s (s : six f64) : six f32 := six_to_f32 s.
(** src/matrix/skia.rs L18-22 *)
Definition sk_matrix_of_affine (m : affine) : six f32 := six_to_f32 (as_coeffs m).
(** src/matrix/skia.rs L11-16 *)
Definition sk_matrix_of_glif (m : glifmatrix) : six f32 := sk_matrix_of_affine (affine_of_matrix m).

(** src/image.rs L142-144 is the field; L146-154 with the conversion of f64 to
    `IntegerOrFloat` (external) as a parameter. *)
Definition image_set_matrix (iof_of_f64 : f64 -> iof) (i : glifimage) (m : affine) : glifimage :=
  let '(a, b, c, d, e, f) := as_coeffs m in
  mkImage (i_filename i)
    (mkMatrix (iof_of_f64 a) (iof_of_f64 b) (iof_of_f64 c) (iof_of_f64 d) (iof_of_f64 e) (iof_of_f64 f))
    (i_identifier i) (i_color i).

(** * Property lists *)
(** plist::Value (external crate), the constructors used here.
    src/guideline.rs L40-52, src/color.rs L22-24. *)
Inductive plvalue := PReal (f : f64) | PString (s : str) | PArray (l : list plvalue).
(** plist::Dictionary: keys in order of insertion; a key that is present keeps its place.
    src/guideline.rs L40-52. *)
Definition pldict := list (str * plvalue).
(** src/guideline.rs L40-52. *)
Fixpoint pl_insert (d : pldict) (k : str) (v : plvalue) : pldict :=
  match d with
  | [] => [(k, v)]
  | (k', v') :: d => if str_eqb k k' then (k', v) :: d else (k', v') :: pl_insert d k v
  end.
(** Reading a dictionary made by src/guideline.rs L40-52. *)
Fixpoint pl_get (d : pldict) (k : str) : option plvalue :=
  match d with
  | [] => None
  | (k', v) :: d => if str_eqb k k' then Some v else pl_get d k
  end.

(** src/color.rs L22-24 *)
Definition color_plist (c : color) : plvalue :=
  PArray [PReal (f64_of_iof (cr c)); PReal (f64_of_iof (cg c)); PReal (f64_of_iof (cb c)); PReal (f64_of_iof (ca c))].
(** src/guideline.rs L40-52 *)
Definition guideline_plist {PD} (g : guideline PD) : pldict :=
  let d := pl_insert [] (lit "x") (PReal (f64_of_f32 (gl_x g))) in
  let d := pl_insert d (lit "y") (PReal (f64_of_f32 (gl_y g))) in
  let d := pl_insert d (lit "angle") (PReal (f64_of_iof (gl_angle g))) in
  let d := match gl_name g with Some n => pl_insert d (lit "name") (PString n) | None => d end in
  match gl_color g with Some c => pl_insert d (lit "color") (color_plist c) | None => d end.

(** * Rounding of whole outlines *)
(** src/outline/refigure.rs L100-113: a vector rounds each of its elements. *)
Definition outline_round_to_int {PD} (o : list (list (point PD))) : list (list (point PD)) := map (map round_to_int) o.
(** `RoundToInt` through `impl_rti!`, src/outline/refigure.rs L100-113. *)
Definition glifoutline_round_to_int (o : list (list glifpoint)) : list (list glifpoint) := map (map gp_round_to_int) o.

(** * Handles by name *)
(** `char::is_whitespace`, Unicode White_Space.
    Used by `trim`, src/point.rs L294. *)
Definition is_whitespace (c : N) : bool :=
  ((9 <=? c) && (c <=? 13) || (c =? 32) || (c =? 133) || (c =? 160) || (c =? 5760) ||
   ((8192 <=? c) && (c <=? 8202)) || (c =? 8232) || (c =? 8233) || (c =? 8239) || (c =? 8287) || (c =? 12288))%N.
(** src/point.rs L294 (only the first character is looked at, so the end need not be trimmed). *)
Fixpoint trim_start (s : str) : str :=
  match s with c :: t => if is_whitespace c then trim_start t else s | [] => [] end.
(** src/point.rs L290-296; debug builds check that there is one character. *)
Definition which_from_str (dbg : bool) (s : str) : res (option which) :=
  if dbg && negb (Nat.eqb (List.length s) 1) then Panic
  else match trim_start s with
       | c :: _ => let* w := which_of_char dbg c in Ok (Some w)
       | [] => Ok None
       end.

(** * Whole glyphs *)
Section Glyphs.
Context (L : numlib) {PD PL : Type} (pd0 : PD) (P : plistlib PL) (dbg : bool).
(** Texts, the external XML parser and the external XML writer (which may fail). *)
Context {T : Type} (parse : T -> option element) (print : element -> option T).

(** src/glif/read.rs L69-75 *)
Definition read_text (t : T) : res (glif PD PL) :=
  let* root := ok_or (parse t) EXmlParse in read_element L pd0 P pedantry_default root.
(** src/glif/write.rs L25-41.  Simplification: that the written bytes are UTF-8 is part of
    [print]. *)
Definition write_text (g : glif PD PL) : res T :=
  let* e := glif_xml L P dbg g in ok_or (print e) EXmlWrite.

(** src/glif/conv.rs L6-10 *)
Definition glif_from_text (t : T) : res (glif PD PL) :=
  match read_text t with Ok g => Ok g | _ => Panic end.
(** src/glif/conv.rs L12-22 *)
Definition text_from_glif (g : glif PD PL) : res T :=
  match write_text g with Ok t => Ok t | _ => Panic end.

(** * Files *)
(** `fs::write` (external): the contents the file goes through, one after another, when the
    text is written; and whether the call is interrupted by an error after some of them. *)
Context (steps : T -> list T) (interrupted : path -> T -> option nat).
(** Effect of `fs::write`, src/glif/write.rs L20. *)
Definition set_file (files : path -> option T) (fn : path) (c : T) : path -> option T :=
  fun p => if list_eq_dec (list_eq_dec N.eq_dec) p fn then Some c else files p.
(** The file system when k steps of `fs::write(fn, t)` are done.
    src/glif/write.rs L20. *)
Definition under_way (files : path -> option T) (fn : path) (t : T) (k : nat) : path -> option T :=
  match rev (firstn k (steps t)) with c :: _ => set_file files fn c | [] => files end.
(** src/glif/write.rs L20-22. *)
Definition fs_write (files : path -> option T) (fn : path) (t : T) : bool * (path -> option T) :=
  match interrupted fn t with
  | None => (true, set_file files fn t)
  | Some k => (false, under_way files fn t k)
  end.

(** src/glif/write.rs L13-23, and the file system it leaves. *)
Definition write_to_filename (files : path -> option T) (g : glif PD PL) (fn : path)
  : res unit * (path -> option T) :=
  match write_text g with
  | Ok t => let '(ok, files') := fs_write files fn t in (if ok then Ok tt else Err EXmlWrite, files')
  | Err e => (Err e, files)
  | Panic => (Panic, files)
  end.
(** The same call when the machine stops after k steps of `fs::write`.
    src/glif/write.rs L14-23. *)
Definition write_crashed (files : path -> option T) (g : glif PD PL) (fn : path) (k : nat) : path -> option T :=
  match write_text g with Ok t => under_way files fn t k | _ => files end.

End Glyphs.

(** * Flattening of MFEK glyphs *)
(** src/component.rs L226-256 for [MFEKGlif] (outline field `flattened`), L261-263. *)
Definition mfek_flattened (L : numlib) {PD PL H : Type} (pd0 : PD) (P : plistlib PL)
  {T : Type} (files : path -> option T) (parse : T -> option element)
  (fuel : nat) (rects : option (list comp_rect)) (m : mglif PD H)
  : option (res (mglif PD H * option (list comp_rect))) :=
  match build_forest L pd0 P files parse fuel (mg_components m) with
  | None => None
  | Some (Err e) => Some (Err e)
  | Some Panic => Some Panic
  | Some (Ok forest) =>
      let '(o, rs) := flatten_forest forest [] in
      let m' := mkMG H (mg_layers m) (mg_history m) (mg_anchors m) components_default (Some o)
                     (mg_component_rects m) (mg_guidelines m) (mg_width m) (mg_unicode m) (mg_name m)
                     (mg_note m) (mg_filename m) in
      Some (Ok (m', match rects with Some _ => Some rs | None => None end))
  end.
