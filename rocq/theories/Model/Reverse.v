(** Reversal of contours.  src/outline/contour/reverse.rs, src/outline/reverse.rs. *)
Require Import Coq.Lists.List Coq.Bool.Bool Coq.Arith.Arith.
Require Import Verif.Model.Base Verif.Model.Float Verif.Model.Num Verif.Model.Point Verif.Model.Contour.
Import ListNotations.

Section Reverse.
Context {PD : Type}.

(** src/outline/contour/reverse.rs L33-41 (loop body): swap the handles. *)
Definition swap_handles (p : point PD) : point PD := with_b (with_a p (pb p)) (pa p).

(** src/outline/contour/reverse.rs L48-51, L53-56: type from the two handles of a segment. *)
Definition type_of_handles (prev_a b : handle) : ptype :=
  match prev_a, b with
  | At _ _, _ => Curve
  | _, At _ _ => Curve
  | Colocated, Colocated => Line
  end.

(** `== Handle::Colocated`, src/outline/contour/reverse.rs L62-63. *)
Definition is_colocated (h : handle) : bool :=
  match h with Colocated => true | At _ _ => false end.

(** src/outline/contour/reverse.rs L18-67 *)
Definition to_reversed (dbg : bool) (c : contour PD) : res (contour PD) :=
  match c with
  | [] => Panic                                      (* self.first().unwrap(), L20 *)
  | p0 :: rest =>
      let open_contour := ptype_eqb (pptype p0) Move && (1 <? length c) in
      let order := if open_contour then rev c else p0 :: rev rest in
      let new_c := map swap_handles order in
      if open_contour then
        let c_len := length new_c in
        let* h := idx new_c 0 in
        let new_c := set_nth new_c 0 (with_ptype h Move) in
        if (3 <=? c_len) || (c_len =? 2) then
          let* q := idx new_c (c_len - 2) in
          let* l := idx new_c (c_len - 1) in
          let t := type_of_handles (pa q) (pb l) in
          let new_c := set_nth new_c (c_len - 1) (with_ptype l t) in
          let* h := idx new_c 0 in
          let* l := idx new_c (c_len - 1) in
          if dbg && negb (is_colocated (pb h) && is_colocated (pa l)) then Panic
          else Ok new_c
        else Ok new_c
      else Ok new_c
  end.

(** src/outline/reverse.rs L5-17 *)
Definition outline_to_reversed (dbg : bool) (o : outline PD) : res (outline PD) :=
  mapM (to_reversed dbg) o.

End Reverse.
