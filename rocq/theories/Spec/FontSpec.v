(** A font: glyphs saved one after another into the files of a directory. *)
Require Import Coq.Strings.String Coq.Lists.List Coq.NArith.NArith Coq.Relations.Relation_Operators.
Require Import Verif.Model.Base Verif.Model.Text Verif.Model.Num Verif.Model.Point Verif.Model.Names Verif.Model.Xml Verif.Model.Parts
  Verif.Model.Interop Verif.Spec.InteropSpec.
Import ListNotations.

Section Font.
Context (L : numlib) {PD PL : Type} (P : plistlib PL) (dbg : bool).
Context {T : Type} (print : element -> option T) (steps : T -> list T) (interrupted : path -> T -> option nat).

(** What happens to the files: a glyph is saved; saving one fails; the machine stops while one
    is being saved. *)
Inductive happening := Saved (fn : path) (g : glif PD PL) | Failed (fn : path) (g : glif PD PL) | Stopped (fn : path) (g : glif PD PL).
Definition place (h : happening) : path := match h with Saved fn _ | Failed fn _ | Stopped fn _ => fn end.
Inductive happens : (path -> option T) -> happening -> (path -> option T) -> Prop :=
| it_is_saved files fn g files' :
    write_to_filename L P dbg print steps interrupted files g fn = (Ok tt, files') -> happens files (Saved fn g) files'
| it_fails files fn g r files' :
    write_to_filename L P dbg print steps interrupted files g fn = (r, files') -> r <> Ok tt -> happens files (Failed fn g) files'
| it_stops files fn g k : happens files (Stopped fn g) (write_crashed L P dbg print steps files g fn k).
(** One after another. *)
Inductive history : (path -> option T) -> list happening -> (path -> option T) -> Prop :=
| nothing_yet files : history files [] files
| and_then files hs files' h files'' : history files hs files' -> happens files' h files'' -> history files (hs ++ [h]) files''.

(** The file of a glyph in the directory of its font. *)
Definition home (dir : path) (name : str) : path := dir ++ [filename_of name].
(** A font: different names, none with a path separator. *)
Definition font (gs : list (glif PD PL)) : Prop :=
  NoDup (map g_name gs) /\ forall g, In g gs -> ~ In 47%N (g_name g).
(** A glyph called [a] has a component naming [b]. *)
Definition mentions (gs : list (glif PD PL)) (a b : str) : Prop :=
  exists g c, In g gs /\ g_name g = a /\ In c (cs_vec (g_components g)) /\ c_base c = b.
(** All components are there. *)
Definition self_contained (gs : list (glif PD PL)) : Prop :=
  forall a b, mentions gs a b -> exists h, In h gs /\ g_name h = b.
(** Following components from [a] one can come to a glyph that includes itself. *)
Definition in_circles (gs : list (glif PD PL)) (a : str) : Prop :=
  exists b, clos_refl_trans_1n _ (mentions gs) a b /\ clos_trans_1n _ (mentions gs) b b.
End Font.
