(** Reading and writing glyphs in builds without images or without serde.  src/glif/read.rs, src/glif/write.rs. *)
Require Import Coq.Lists.List Coq.NArith.NArith Coq.Bool.Bool Coq.Strings.String.
Require Import Verif.Model.Base Verif.Model.Text Verif.Model.Num Verif.Model.Point Verif.Model.Contour Verif.Model.Create Verif.Model.Names
  Verif.Model.Pedantry Verif.Model.Xml Verif.Model.Parts Verif.Model.Read Verif.Model.Write.
Import ListNotations.
Local Open Scope string_scope.

(** The cargo features that change how glyphs are read and written: `glifimage`, `glifserde`
    (Cargo.toml L37-40). *)
Record features := mkFeatures { f_image : bool; f_serde : bool }.

Section Features.
Context (L : numlib) {PD PL : Type} (pd0 : PD) (P : plistlib PL).

(** src/glif/read.rs L165-186: without `glifimage` the block is not there, and neither is the
    field `images` of the glyph (src/glif.rs L57-58), which is the empty list here. *)
Definition read_images (F : features) (ch : list node) : res (list glifimage * list node) :=
  if f_image F then take_all "image" (read_image L) ch else Ok ([], ch).
(** src/glif/read.rs L290-308 *)
Definition read_lib_with (F : features) (o : option element) : lib PL := if f_serde F then read_lib P o else LNone.

(** src/glif/read.rs L74-317, as [read_element] *)
Definition read_element_with (F : features) (ped : pedantry) (root : element) : res (glif PD PL) :=
  if negb (str_eqb (ename root) (lit "glyph")) then Err (EInput "Root element not <glyph>")
  else
    let* format := ok_or (get root "format") (EInput "no format in <glyph>") in
    if negb (str_eqb format (lit "2")) then Err (EInput "<glyph> format not 2")
    else
    let* name := ok_or (get root "name") (EInput "<glyph> has no name") in
    let ch := echildren root in
    let '(adv, ch) := take_opt "advance" ch in
    let* width := match adv with
                  | Some a => let* w := read_advance L ped a in Ok (Some w)
                  | None => Ok None
                  end in
    let* r := take_all "unicode" read_unicode ch in
    let '(unicodes, ch) := r in
    let* r := take_all "anchor" (read_anchor L pd0 ped) ch in
    let '(anchors, ch) := r in
    let* r := read_images F ch in
    let '(images, ch) := r in
    let* r := take_all "guideline" (read_guideline L pd0) ch in
    let '(guidelines, ch) := r in
    let '(note_el, ch) := take_opt "note" ch in
    let note := match note_el with Some n => get_text n | None => None end in
    let '(outline_el, ch) := take_opt "outline" ch in
    let* r := read_outline L outline_el in
    let '(goutline, components) := r in
    let '(lib_el, ch) := take_opt "lib" ch in
    let lib := read_lib_with F lib_el in
    let* o := outline_of_glif L goutline in
    let outline := if nonempty o || nonempty components then Some o else None in
    Ok (mkGlif outline anchors (mkComponents name components []) guidelines images width unicodes
               name note None lib).

(** src/glif/write.rs L44-119, as [glif_xml]; L72-77 is not there without `glifimage` *)
Definition glif_xml_with (F : features) (dbg : bool) (g : glif PD PL) : res element :=
  let root := insert "format" (lit "2") (insert "name" (g_name g) (new_element "glyph")) in
  let advance := match g_width g with Some w => [NElem (advance_xml w)] | None => [] end in
  let unicodes := map (fun c => NElem (codepoint_xml c)) (g_unicode g) in
  let anchors := map (fun a => NElem (anchor_xml L a)) (g_anchors g) in
  let* oc := outline_children L dbg (g_outline g) in
  let oc := (oc ++ map (fun c => NElem (component_xml L c)) (cs_vec (g_components g)))%list in
  let outline := match oc with [] => [] | _ => [NElem (Element (lit "outline") [] oc)] end in
  let images := if f_image F then flat_map (image_nodes L) (g_images g) else [] in
  let guidelines := map (fun x => NElem (guideline_xml L x)) (g_guidelines g) in
  let note := match g_note g with
              | Some n => [NElem (Element (lit "note") [] [NText n])]
              | None => []
              end in
  Ok (Element (ename root) (eattrs root)
        (advance ++ unicodes ++ anchors ++ outline ++ images ++ guidelines ++ note ++ lib_nodes P (g_lib g))).
End Features.
