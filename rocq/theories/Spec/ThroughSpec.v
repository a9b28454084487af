(** Saving glyphs that were turned into MFEK glyphs. *)
Require Import Coq.Strings.String Coq.Lists.List.
Require Import Verif.Model.Base Verif.Model.Text Verif.Model.Xml Verif.Model.Parts Verif.Model.Mpoint Verif.Model.Mfek.
Import ListNotations.

(** The document without its `lib` elements. *)
Definition without_lib (e : element) : element :=
  Element (ename e) (eattrs e) (filter (fun n => match n with NElem c => negb (str_eqb (ename c) (lit "lib")) | _ => true end) (echildren e)).
(** The glyph without its lib. *)
Definition libless {PD PL} (g : glif PD PL) : glif PD PL :=
  mkGlif (g_outline g) (g_anchors g) (g_components g) (g_guidelines g) (g_images g) (g_width g) (g_unicode g) (g_name g) (g_note g) (g_filename g) LNone.

(** Two MFEK glyphs with the same first layer, up to its name, color, visibility, operation and the operations of
    its contours, and the same parts that do not belong to layers.  Their other layers, their histories and what is
    kept of flattening may differ. *)
Definition same_front {PD H H'} (m : mglif PD H) (m' : mglif PD H') : Prop :=
  mg_anchors m = mg_anchors m' /\ cs_vec (mg_components m) = cs_vec (mg_components m') /\ mg_guidelines m = mg_guidelines m' /\
  mg_width m = mg_width m' /\ mg_unicode m = mg_unicode m' /\ mg_name m = mg_name m' /\ mg_note m = mg_note m' /\
  exists l l', nth_error (mg_layers m) 0 = Some l /\ nth_error (mg_layers m') 0 = Some l' /\
    map (@mc_inner PD) (l_outline l) = map (@mc_inner PD) (l_outline l') /\ map fst (l_images l) = map fst (l_images l').
