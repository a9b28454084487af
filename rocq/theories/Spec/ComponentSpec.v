(** What including, resolving and flattening components means. *)
Require Import Coq.Lists.List Coq.NArith.NArith Coq.Relations.Relation_Operators Coq.ZArith.ZArith Coq.Floats.SpecFloat.
Require Import Verif.Model.Base Verif.Model.Float Verif.Model.Point Verif.Model.Num Verif.Model.Parts
  Verif.Model.Component.
Import ListNotations.

Section Spec.
Context {PD PL : Type}.
(** What a component reference loads (`GlifComponent::to_component`). *)
Context (load : glifcomponent -> res (component PD PL)).

(** The components of a loaded glyph. *)
Definition parts (c : component PD PL) : list glifcomponent := cs_vec (g_components (cp_glif c)).

(** The glyph one reference loads mentions the other reference; in any number of steps; in
    one step or more. *)
Definition includes (r r' : glifcomponent) : Prop := exists c, load r = Ok c /\ In r' (parts c).
Definition reaches : glifcomponent -> glifcomponent -> Prop := clos_refl_trans_1n _ includes.
Definition includes_deep : glifcomponent -> glifcomponent -> Prop := clos_trans_1n _ includes.

(** A name without path separators; all glyphs below these references are called so. *)
Definition plain_name (s : str) : Prop := ~ In 47%N s.
Definition plain_below (rs : list glifcomponent) : Prop :=
  forall r0 r, In r0 rs -> includes_deep r0 r -> plain_name (c_base r).

(** Two references to the same glyph: the same name in the same file. *)
Definition same_glyph (r r' : glifcomponent) : Prop := c_base r = c_base r' /\ c_filename r = c_filename r'.

(** A glyph reachable from these references includes itself. *)
Definition cyclic (rs : list glifcomponent) : Prop :=
  exists r0 r r', In r0 rs /\ reaches r0 r /\ includes_deep r r' /\ same_glyph r r'.

(** The reference unfolds to the finite tree. *)
Inductive resolves : glifcomponent -> ctree PD PL -> Prop :=
| resolves_node r c ts : load r = Ok c -> Forall2 resolves (parts c) ts -> resolves r (CNode c ts).
End Spec.

Section Flat.
Context {PD PL : Type}.

(** A position, handle, point and contour under a list of matrices, applied in that order. *)
Definition move_xy (ms : list affine) (x y : f32) : f32 * f32 :=
  fold_left (fun '(x, y) m => apply_xy m x y) ms (x, y).
Definition move_handle (ms : list affine) (h : handle) : handle :=
  match h with
  | Colocated => Colocated
  | At x y => let '(x', y') := move_xy ms x y in At x' y'
  end.
Definition moved_point (ms : list affine) (p q : point PD) : Prop :=
  (px q, py q) = move_xy ms (px p) (py p) /\
  pa q = move_handle ms (pa p) /\ pb q = move_handle ms (pb p) /\
  pname q = pname p /\ pptype q = pptype p /\ psmooth q = psmooth p /\ pdata q = pdata p.
Definition moved : list affine -> list (point PD) -> list (point PD) -> Prop :=
  fun ms => Forall2 (moved_point ms).

Definition own_contours (c : component PD PL) : list (list (point PD)) :=
  match g_outline (cp_glif c) with Some o => o | None => [] end.

(** All contours of a tree, each with the matrices it is under, from the inside out. *)
Fixpoint all_contours (above : list affine) (t : ctree PD PL) : list (list affine * list (point PD)) :=
  let 'CNode c ts := t in
  let ms := cp_matrix c :: above in
  map (pair ms) (own_contours c) ++ flat_map (all_contours ms) ts.

(** The contours of a glyph and of everything it includes. *)
Definition contours_of (g : glif PD PL) : list (list (point PD)) :=
  match g_outline g with Some o => o | None => [] end.
Definition glyph_contours (g : glif PD PL) (ts : list (ctree PD PL)) : list (list affine * list (point PD)) :=
  map (pair []) (contours_of g) ++ flat_map (all_contours []) ts.

(** Those of the top two levels, the second level from last to first; and those below. *)
Definition upper_contours (t : ctree PD PL) : list (list affine * list (point PD)) :=
  let 'CNode c ts := t in
  map (pair [cp_matrix c]) (own_contours c) ++
  flat_map (fun t' => map (pair [cp_matrix (cdata t'); cp_matrix c]) (own_contours (cdata t'))) (rev ts).
Definition lower_contours (t : ctree PD PL) : list (list affine * list (point PD)) :=
  let 'CNode c ts := t in
  flat_map (fun t' => flat_map (all_contours [cp_matrix (cdata t'); cp_matrix c]) (cchildren t')) ts.

(** Only two levels of components. *)
Definition shallow (t : ctree PD PL) : Prop := forall t', In t' (cchildren t) -> cchildren t' = [].

(** The smallest rectangle around points none of which is NaN. *)
Definition tight (r : comp_rect) (ps : list (point PD)) : Prop :=
  (forall p, In p ps -> fle (r_minx r) (px p) = true /\ fle (px p) (r_maxx r) = true /\
                        fle (r_miny r) (py p) = true /\ fle (py p) (r_maxy r) = true) /\
  (exists p, In p ps /\ px p = r_minx r) /\ (exists p, In p ps /\ px p = r_maxx r) /\
  (exists p, In p ps /\ py p = r_miny r) /\ (exists p, In p ps /\ py p = r_maxy r).
(** Whose contours are placed: the component and its direct parts from last to first, those
    without contours left out. *)
Definition placed (t : ctree PD PL) : list (component PD PL) :=
  filter (fun c => match own_contours c with [] => false | _ => true end)
         (cdata t :: map cdata (rev (cchildren t))).
Definition numeric (p : point PD) : Prop := is_nan (px p) = false /\ is_nan (py p) = false.
End Flat.

(** A float that is an integer, and the exact affine maps of the plane over the integers. *)
Record zaffine := mkZ { z0 : Z; z1 : Z; z2 : Z; z3 : Z; z4 : Z; z5 : Z }.
Definition zapply (m : zaffine) (p : Z * Z) : Z * Z :=
  ((z0 m * fst p + z2 m * snd p + z4 m)%Z, (z1 m * fst p + z3 m * snd p + z5 m)%Z).
(** First [m], then [n]. *)
Definition zthen (m n : zaffine) : zaffine :=
  mkZ (z0 n * z0 m + z2 n * z1 m) (z1 n * z0 m + z3 n * z1 m)
      (z0 n * z2 m + z2 n * z3 m) (z1 n * z2 m + z3 n * z3 m)
      (z0 n * z4 m + z2 n * z5 m + z4 n) (z1 n * z4 m + z3 n * z5 m + z5 n).
Definition zid : zaffine := mkZ 1 0 0 1 0 0.

Local Open Scope Z_scope.
(** The float is the integer z (no statement about the sign of zero). *)
Definition is_int32 (f : f32) (z : Z) : Prop := feq f (f32_of_Z z) = true /\ Z.abs z < 2 ^ 24.
Definition is_int64 (f : f64) (z : Z) : Prop := feq f (f64_of_Z z) = true /\ Z.abs z < 2 ^ 53.
Definition is_zaffine (m : affine) (z : zaffine) : Prop :=
  is_int64 (c0 m) (z0 z) /\ is_int64 (c1 m) (z1 z) /\ is_int64 (c2 m) (z2 z) /\
  is_int64 (c3 m) (z3 z) /\ is_int64 (c4 m) (z4 z) /\ is_int64 (c5 m) (z5 z).
(** Nothing gets larger than the floats hold exactly. *)
Definition small64 (z : Z) : Prop := Z.abs z < 2 ^ 53.
Definition small32 (z : Z) : Prop := Z.abs z < 2 ^ 24.
Definition fits (m : zaffine) (p : Z * Z) : Prop :=
  small64 (z0 m * fst p) /\ small64 (z2 m * snd p) /\ small64 (z0 m * fst p + z2 m * snd p) /\
  small64 (z1 m * fst p) /\ small64 (z3 m * snd p) /\ small64 (z1 m * fst p + z3 m * snd p) /\
  small32 (fst (zapply m p)) /\ small32 (snd (zapply m p)).
Fixpoint fits_all (ms : list zaffine) (p : Z * Z) : Prop :=
  match ms with [] => True | m :: ms => fits m p /\ fits_all ms (zapply m p) end.
