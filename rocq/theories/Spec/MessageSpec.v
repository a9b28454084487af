(** What an error message says. *)
Require Import Coq.Strings.String Coq.Lists.List Coq.NArith.NArith.
Require Import Verif.Model.Base Verif.Model.Text Verif.Model.Message.
Import ListNotations.
Local Open Scope string_scope.

(** The errors that the crate makes: the types that texts are converted to, and control characters
    (those below 32 and from 127 to 159). *)
Definition control (c : N) : Prop := (c < 32 \/ 127 <= c <= 159)%N.
Definition made (e : err) : Prop :=
  match e with
  | ETypeConversion ty _ => In ty ["JoinType"; "CapType"; "InterpolationType"]
  | EControlChar _ c => control c
  | _ => True
  end.
(** Errors that come with a text from elsewhere. *)
Definition from_elsewhere (e : err) : Prop := e = EFileIo \/ e = EXmlParse \/ e = EXmlWrite \/ e = EImageIo.
Definition about_xml (e : err) : Prop := e = EXmlParse \/ e = EXmlWrite.
Definition about_cycles (e : err) : Prop := exists base from root, e = ECyclical base from root.
