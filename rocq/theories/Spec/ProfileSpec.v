(** Debug and release builds. *)
Require Import Verif.Model.Base.

(** What the debug build did is what the release build does, unless an assertion stopped it. *)
Definition asserts {A} (debug release : res A) : Prop := debug = Panic \/ debug = release.
