(** Contours to glif points.  src/outline/conv.rs. *)
Require Import Coq.Lists.List Coq.Bool.Bool Coq.Arith.Arith.
Require Import Verif.Model.Base Verif.Model.Float Verif.Model.Num Verif.Model.Point Verif.Model.Contour.
Import ListNotations.

Section Conv.
Context (L : numlib) {PD : Type}.

(** src/outline/conv.rs L40-46: indices kept for an on-curve point of type t at index i
    (negative indices are dropped, L47). *)
Definition keep_for (i : nat) (t : ptype) : res (list nat) :=
  match t with
  | Move | Line => Ok [i]
  | QCurve => Ok (match i with 0 => [0] | S j => [j; S j] end)
  | Curve => Ok (match i with
                 | 0 => [0]
                 | 1 => [0; 1]
                 | S (S j) => [j; S j; S (S j)]
                 end)
  | _ => Panic
  end.

(** src/outline/conv.rs L35: indices and types of the points that are not off-curve. *)
Definition oncurve_types (c : list glifpoint) : list (nat * ptype) :=
  filter (fun it => negb (ptype_eqb (snd it) OffCurve))
         (combine (seq 0 (length c)) (map gptype c)).

(** src/outline/conv.rs L34-53.  The debug assertion on the number of kept points
    (L52) is [length kept = number of distinct indices]. *)
Definition cleanup_offcurves (dbg : bool) (c : list glifpoint) : res (list glifpoint) :=
  let types := oncurve_types c in
  if dbg && negb (forallb (fun it => is_valid_oncurve (snd it)) types) then Panic
  else
    let* kss := mapM (fun it => keep_for (fst it) (snd it)) types in
    let keep_indices := nodup Nat.eq_dec (concat kss) in
    let kept := map snd (filter (fun it => existsb (Nat.eqb (fst it)) keep_indices)
                                (combine (seq 0 (length c)) c)) in
    if dbg && negb (length kept =? length keep_indices) then Panic
    else Ok kept.

(** src/outline/conv.rs L68-70: `while let OffCurve = v[0].ptype { v.rotate_right(1) }`.
    [None] stands for running out of fuel, i.e. a loop longer than [fuel]. *)
Fixpoint rotate_to_oncurve (fuel : nat) (l : list glifpoint) : option (res (list glifpoint)) :=
  match l with
  | [] => Some Panic
  | g :: _ =>
      if ptype_eqb (gptype g) OffCurve then
        match fuel with
        | O => None
        | S f => rotate_to_oncurve f (rotate_right1 l)
        end
      else Some (Ok l)
  end.

(** src/outline/conv.rs L59-66: three deques drained in lockstep. *)
Fixpoint interleave3 {A} (a b c : list A) : list A :=
  match a, b, c with
  | x :: a, y :: b, z :: c => x :: y :: z :: interleave3 a b c
  | _, _, _ => []
  end.

(** src/outline/conv.rs L57-72.  `rotate_right(1)` on an empty deque panics. *)
Definition into_glifpoints (dbg : bool) (fuel : nat) (c : contour PD)
  : option (res (list glifpoint)) :=
  match c with
  | [] => Some Panic
  | _ =>
      let on_points := map (gp_of_point L) c in
      let next_handles := rotate_right1 (map (fun p => gp_from_handle L p WA) c) in
      let prev_handles := map (fun p => gp_from_handle L p WB) c in
      match cleanup_offcurves dbg (interleave3 next_handles prev_handles on_points) with
      | Ok kept => rotate_to_oncurve fuel kept
      | Err e => Some (Err e)
      | Panic => Some Panic
      end
  end.

End Conv.
