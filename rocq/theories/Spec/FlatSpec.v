(** Saving glyphs whose components were flattened. *)
Require Import Coq.Lists.List.
Require Import Verif.Model.Base Verif.Model.Num Verif.Model.Names Verif.Model.Xml Verif.Model.Parts Verif.Model.Component
  Verif.Spec.ComponentSpec.
Import ListNotations.

(** The document the glyph of a reference is in. *)
Definition document_of {T} (files : path -> option T) (parse : T -> option element) (r : glifcomponent) (root : element) : Prop :=
  exists fn txt, c_filename r = Some fn /\ files fn = Some txt /\ parse txt = Some root.

(** A reference among these, or among those of a glyph one of these leads to: no deeper. *)
Definition within_two {PD PL} (load : glifcomponent -> res (component PD PL)) (rs : list glifcomponent) (r : glifcomponent) : Prop :=
  In r rs \/ exists r0, In r0 rs /\ includes load r0 r.
