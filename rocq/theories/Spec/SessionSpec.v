(** Histories of edits of the outline of a glyph. *)
Require Import Coq.Lists.List.
Require Import Verif.Model.Base Verif.Model.Float Verif.Model.Num Verif.Model.Point Verif.Model.Contour Verif.Model.Reverse Verif.Model.Refigure
  Verif.Model.Mpoint Verif.Model.Interop Verif.Spec.ContourSpec Verif.Spec.OutlineSpec.
Require Verif.Spec.EditSpec.
Import ListNotations.

(** What can be done to an outline with the methods of the library; contours and points are told by their places.
    [ChangeAt] are the methods that change one point: its position, handles, name and smoothness. *)
Inductive session_edit :=
| ReverseAll | ReverseOne (i : nat)
| RefigureAll | RefigureOne (i : nat)
| RoundAll
| ChangeAt (i j : nat) (ch : EditSpec.change).

(** `f(&mut v[i])`. *)
Definition at_place {A} (v : list A) (i : nat) (f : A -> res A) : res (list A) :=
  let* a := idx v i in let* a' := f a in Ok (set_nth v i a').

Definition change_cubic {PD} (ch : EditSpec.change) (p : point PD) : point PD :=
  match EditSpec.change_point ch (MCubic p) with MCubic q => q | _ => p end.

Definition perform {PD} (dbg : bool) (o : outline PD) (e : session_edit) : res (outline PD) :=
  match e with
  | ReverseAll => outline_to_reversed dbg o
  | ReverseOne i => at_place o i (to_reversed dbg)
  | RefigureAll => refigure_outline o
  | RefigureOne i => at_place o i refigure
  | RoundAll => Ok (outline_round_to_int o)
  | ChangeAt i j ch => at_place o i (fun c => at_place c j (fun p => Ok (change_cubic ch p)))
  end.

(** One edit after another. *)
Fixpoint session {PD} (dbg : bool) (o : outline PD) (es : list session_edit) : res (outline PD) :=
  match es with
  | [] => Ok o
  | e :: es => let* o := perform dbg o e in session dbg o es
  end.

(** The places an edit tells exist. *)
Definition in_place {PD} (o : outline PD) (e : session_edit) : Prop :=
  match e with
  | ReverseOne i | RefigureOne i => i < length o
  | ChangeAt i j _ => exists c, nth_error o i = Some c /\ j < length c
  | _ => True
  end.

(** The edit reverses, or refigures the types of, the contour at [i]. *)
Definition reverses (i : nat) (e : session_edit) : Prop := e = ReverseAll \/ e = ReverseOne i.
Definition refigures (i : nat) (e : session_edit) : Prop := e = RefigureAll \/ e = RefigureOne i.

(** The edit places no handle. *)
Definition places_no_handle (e : session_edit) : Prop :=
  match e with
  | ChangeAt _ _ (EditSpec.ChHandle _ (At _ _)) | ChangeAt _ _ (EditSpec.ChHandleAt _ _ _) => False
  | _ => True
  end.
