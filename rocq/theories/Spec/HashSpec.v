(** What hashing should tell of a value. *)
Require Import Coq.Lists.List.
Require Import Verif.Model.Base Verif.Model.Num Verif.Model.Point Verif.Model.Parts Verif.Model.Serde Verif.Model.Hash Verif.Spec.EqualSpec.
Import ListNotations.

(** What the hasher is given depends on nothing but what [R] compares, and on all of it; also if more is hashed
    afterwards. *)
Definition tells {A} (h : A -> list word) (R : A -> A -> Prop) : Prop :=
  forall a b rest rest', h a ++ rest = h b ++ rest' <-> R a b /\ rest = rest'.

(** When two points, or two outlines, as files have them are equal. *)
Definition same_glifpoint (num : iof -> iof -> Prop) (p q : glifpoint) : Prop :=
  num (gx p) (gx q) /\ num (gy p) (gy q) /\ gsmooth p = gsmooth q /\ gname p = gname q /\ gptype p = gptype q.
Definition same_glifoutline (num : iof -> iof -> Prop) (a b : glifoutline) : Prop :=
  Forall2 (Forall2 (same_glifpoint num)) (go_contours a) (go_contours b) /\
  Forall2 (same_component num) (go_components a) (go_components b).
