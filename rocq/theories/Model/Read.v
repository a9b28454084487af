(** Reading a glyph from its element tree.  src/glif/read.rs. *)
Require Import Coq.Lists.List Coq.NArith.NArith Coq.ZArith.ZArith Coq.Bool.Bool Coq.Strings.String.
Require Import Verif.Model.Base Verif.Model.Text Verif.Model.Float Verif.Model.Num
  Verif.Model.Point Verif.Model.Contour Verif.Model.Create Verif.Model.Strings Verif.Model.Names
  Verif.Model.Pedantry Verif.Model.Color Verif.Model.Xml Verif.Model.Parts.
Import ListNotations.
Local Open Scope string_scope.

Section Read.
Context (L : numlib) {PD PL : Type} (pd0 : PD) (P : plistlib PL).

(** src/glif/read.rs L97-116: the width of an `<advance>`. *)
Definition read_advance (ped : pedantry) (a : element) : res N :=
  let* width := ok_or (get a "width") (EInput "<advance> has no width") in
  match parse_u64 width with
  | Some i => Ok i
  | None =>
      match f32_read L width with
      | Some f =>
          if is_subnormal f then Err (EInput "<advance> width neither int nor downgradable (not subnormal) float!")
          else if negb (should_mend ped) then
            Err (EInput "Floating point value given as <advance> width")
          else Ok (f32_as_u64 f)
      | None => Err (EInput "<advance> width neither int nor downgradable (not subnormal) float!")
      end
  end.

(** src/glif/read.rs L122-134 *)
Definition read_unicode (u : element) : res N :=
  let* hex := ok_or (get u "hex") (EInput "<unicode> has no hex") in
  let* n := ok_or (parse_hex_u32 hex) (EInput "<unicode> hex not int") in
  ok_or (char_from_u32 n) (EInput "<unicode> char conversion failed").

(** src/glif/read.rs L140-161 *)
Definition read_anchor (ped : pedantry) (a : element) : res (anchor PD) :=
  let* xs := ok_or (get a "x") (EInput "<anchor> missing x") in
  let* x := ok_or (iof_read L xs) (EInput "<anchor> x not integer/float") in
  let* ys := ok_or (get a "y") (EInput "<anchor> missing y") in
  let* y := ok_or (iof_read L ys) (EInput "<anchor> y not integer/float") in
  let class := match get a "name" with
               | Some n => match glif_string_len_one n with Ok s => Some s | _ => None end
               | None => None
               end in
  anchor_from_glif pd0 (mkGA x y class) ped.

(** src/glif/read.rs L178-180, L213-215: an optional color attribute. *)
Definition read_color (e : element) : res (option color) :=
  match get e "color" with
  | Some s => let* c := color_parse L s in Ok (Some c)
  | None => Ok None
  end.

(** src/glif/read.rs L168-183 *)
Definition read_image (e : element) : res glifimage :=
  let* fn := ok_or (get e "fileName") (EInput "<image> missing fileName") in
  let i := image_from_filename (Utf8 fn) in
  let* m := load_matrix L e (i_matrix i) in
  let* c := read_color e in
  Ok (mkImage (i_filename i) m (get e "identifier") c).

(** src/glif/read.rs L190-222 *)
Definition read_guideline (e : element) : res (guideline PD) :=
  let* xs := ok_or (get e "x") (EInput "<guideline> missing x") in
  let* x := ok_or (f32_read L xs) (EInput "<guideline> x not float") in
  let* ys := ok_or (get e "y") (EInput "<guideline> missing y") in
  let* y := ok_or (f32_read L ys) (EInput "<guideline> x not float") in
  let* angs := ok_or (get e "angle") (EInput "<guideline> missing angle") in
  let* ang := ok_or (iof_read L angs) (EInput "<guideline> angle not float") in
  let* c := read_color e in
  Ok (mkGuideline x y ang (get e "name") c (get e "identifier") pd0).

(** src/glif/read.rs L237-276 *)
Definition read_point (e : element) : res glifpoint :=
  let* xs := ok_or (get e "x") (EInput "<point> missing x") in
  let* x := ok_or (iof_read L xs) (EInput "<point> x not float") in
  let* ys := ok_or (get e "y") (EInput "<point> missing y") in
  let* y := ok_or (iof_read L ys) (EInput "<point> y not float") in
  let t := ptype_of_str (match get e "type" with Some s => s | None => lit "offcurve" end) in
  let smooth := match get e "smooth" with
                | Some s => str_eqb s (lit "yes") && negb (ptype_eqb t OffCurve)
                | None => false
                end in
  if ptype_is_valid t then Ok (mkGP x y smooth (get e "name") t)
  else Err (EInput "Shouldn't write <point> of this type to UFO .glif!").

(** src/glif/read.rs L235-280 *)
Definition read_contour (e : element) : res (list glifpoint) :=
  match while_take (List.length (echildren e)) (lit "point") read_point (echildren e) with
  | Some (Ok (ps, _)) => Ok ps
  | Some (Err x) => Err x
  | Some Panic => Panic
  | None => Panic
  end.

(** src/glif/read.rs L282-287 *)
Definition read_component (e : element) : res glifcomponent :=
  let c := component_new L in
  let* m := load_matrix L e (c_matrix c) in
  let* base := ok_or (get e "base") (EInput "<component> missing base") in
  Ok (mkComponent base None m (get e "identifier")).

(** Sequencing of the `while let` loops over children: the collected results and the
    remaining children.  Running out of fuel is mapped to [Panic]; it never happens
    (Facts/XmlFacts.v, [while_take_named]).
    src/glif/read.rs L122-136, L140-164, L168-186, L190-222, L235-288. *)
Definition take_all {B} (name : string) (f : element -> res B) (ch : list node)
  : res (list B * list node) :=
  match while_take (List.length ch) (lit name) f ch with
  | Some r => r
  | None => Panic
  end.

(** src/glif/read.rs L137-139, L234-290. *)
Definition nonempty {A} (l : list A) : bool := match l with [] => false | _ => true end.

(** src/glif/read.rs L230-288: the outline element (or none): contours, then components. *)
Definition read_outline (o : option element)
  : res (list (list glifpoint) * list glifcomponent) :=
  match o with
  | None => Ok ([], [])
  | Some e =>
      let* cr := take_all "contour" read_contour (echildren e) in
      let '(cs, ch) := cr in
      let* gr := take_all "component" read_component ch in
      Ok (filter nonempty cs, fst gr)
  end.

(** src/glif/read.rs L290-304 (feature glifserde) *)
Definition read_lib (o : option element) : lib PL :=
  match o with
  | None => LNone
  | Some (Element _ a c) =>
      let e := Element (lit "plist") a c in
      match plist_of_element P e with
      | PlOk d => LPlist d
      | PlWriteError => LXml e
      | PlBad => LNone
      end
  end.

(** First child of a name and the remaining children (`take_child`).
    src/glif/read.rs L95, L226, L232, L291. *)
Definition take_opt (name : string) (ch : list node) : option element * list node :=
  match take_child (lit name) ch with
  | Some (e, ch') => (Some e, ch')
  | None => (None, ch)
  end.

(** src/glif/read.rs L74-317, from the parsed element (L75 is the external XML parser);
    features glifimage and glifserde (the defaults) on. *)
Definition read_element (ped : pedantry) (root : element) : res (glif PD PL) :=
  if negb (str_eqb (ename root) (lit "glyph")) then Err (EInput "Root element not <glyph>")
  else
    let* format := ok_or (get root "format") (EInput "no format in <glyph>") in
    if negb (str_eqb format (lit "2")) then Err (EInput "<glyph> format not 2")
    else
    let* name := ok_or (get root "name") (EInput "<glyph> has no name") in
    let ch := echildren root in
    let '(adv, ch) := take_opt "advance" ch in
    let* width := match adv with
                  | Some a => let* w := read_advance ped a in Ok (Some w)
                  | None => Ok None
                  end in
    let* r := take_all "unicode" read_unicode ch in
    let '(unicodes, ch) := r in
    let* r := take_all "anchor" (read_anchor ped) ch in
    let '(anchors, ch) := r in
    let* r := take_all "image" read_image ch in
    let '(images, ch) := r in
    let* r := take_all "guideline" read_guideline ch in
    let '(guidelines, ch) := r in
    let '(note_el, ch) := take_opt "note" ch in
    let note := match note_el with Some n => get_text n | None => None end in
    let '(outline_el, ch) := take_opt "outline" ch in
    let* r := read_outline outline_el in
    let '(goutline, components) := r in
    let '(lib_el, ch) := take_opt "lib" ch in
    let lib := read_lib lib_el in
    let* o := outline_of_glif L goutline in
    let outline := if nonempty o || nonempty components then Some o else None in
    Ok (mkGlif outline anchors (mkComponents name components []) guidelines images width unicodes
               name note None lib).

(** src/glif/read.rs L54-66: read from a file; [files] is the file system (contents already
    decoded to text) and [parse] the external XML parser. *)
Definition read_from_filename (T : Type) (files : path -> option T) (parse : T -> option element)
  (ped : pedantry) (fn : path) : res (glif PD PL) :=
  let* txt := ok_or (files fn) EFileIo in
  let* root := ok_or (parse txt) EXmlParse in
  let* g := read_element ped root in
  let cs := g_components g in
  Ok (mkGlif (g_outline g) (g_anchors g)
        (mkComponents (cs_root cs) (map (fun c => component_set_file_name c fn) (cs_vec cs)) (cs_uniques cs))
        (g_guidelines g) (g_images g) (g_width g) (g_unicode g) (g_name g) (g_note g) (Some fn) (g_lib g)).

End Read.
