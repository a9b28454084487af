(** Writing a glyph as an element tree.  src/glif/write.rs. *)
Require Import Coq.Lists.List Coq.NArith.NArith Coq.ZArith.ZArith Coq.Bool.Bool Coq.Strings.String.
Require Import Verif.Model.Base Verif.Model.Text Verif.Model.Float Verif.Model.Num
  Verif.Model.Point Verif.Model.Contour Verif.Model.Conv Verif.Model.Names
  Verif.Model.Color Verif.Model.Xml Verif.Model.Parts.
Import ListNotations.
Local Open Scope string_scope.

Section Write.
Context (L : numlib) {PD PL : Type} (P : plistlib PL) (dbg : bool).

(** src/outline/contour/xml.rs L18-25: `into_glifpoints().xml()`.  [into_glifpoints] with fuel
    3 * List.length + 3; the loop never needs more (Facts/ConvFacts.v). *)
Definition contour_xml (c : contour PD) : res element :=
  match into_glifpoints L dbg (3 * List.length c + 3) c with
  | Some (Ok gps) => gcontour_xml L dbg gps
  | Some (Err e) => Err e
  | Some Panic => Panic
  | None => Panic
  end.

(** src/outline/xml.rs L5-19: children of the outline element. *)
Definition outline_children (o : option (outline PD)) : res (list node) :=
  match o with
  | Some cs => let* es := mapM contour_xml cs in Ok (map NElem es)
  | None => Ok []
  end.

(** src/glif/write.rs L73-77 *)
Definition image_nodes (i : glifimage) : list node :=
  match image_try_xml L i with Ok e => [NElem e] | _ => [] end.

(** src/glif/write.rs L90-118 *)
Definition lib_nodes (l : lib PL) : list node :=
  match (match l with
         | LPlist d => element_of_plist P d
         | LXml e => Some e
         | LNone => None
         end) with
  | Some (Element _ _ c) => [NElem (Element (lit "lib") [] c)]
  | None => []
  end.

(** src/glif/write.rs L44-119 *)
Definition glif_xml (g : glif PD PL) : res element :=
  let root := insert "format" (lit "2") (insert "name" (g_name g) (new_element "glyph")) in
  let advance := match g_width g with Some w => [NElem (advance_xml w)] | None => [] end in
  let unicodes := map (fun c => NElem (codepoint_xml c)) (g_unicode g) in
  let anchors := map (fun a => NElem (anchor_xml L a)) (g_anchors g) in
  let* oc := outline_children (g_outline g) in
  let oc := (oc ++ map (fun c => NElem (component_xml L c)) (cs_vec (g_components g)))%list in
  let outline := match oc with [] => [] | _ => [NElem (Element (lit "outline") [] oc)] end in
  let images := flat_map image_nodes (g_images g) in
  let guidelines := map (fun x => NElem (guideline_xml L x)) (g_guidelines g) in
  let note := match g_note g with
              | Some n => [NElem (Element (lit "note") [] [NText n])]
              | None => []
              end in
  Ok (Element (ename root) (eattrs root)
        (advance ++ unicodes ++ anchors ++ outline ++ images ++ guidelines ++ note ++ lib_nodes (g_lib g))).

End Write.
