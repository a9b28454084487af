(** What edits of MFEK contours do to their points, their kind and their operation. *)
Require Import Coq.Lists.List Coq.Arith.Arith.
Require Import Verif.Model.Base Verif.Model.Text Verif.Model.Float Verif.Model.Point Verif.Model.Contour
  Verif.Model.Mpoint Verif.Model.Mfek Verif.Spec.MfekSpec.
Import ListNotations.

Section Spec.
Context {PD : Type}.

(** The points after one edit, from those before it. *)
Definition edited (c : mcontour PD) (e : @edit PD) (l' : list (mpoint PD)) : Prop :=
  match e with
  | EDelete n => without (points c) l' n
  | EInsert n p => with_at (points c) l' n p
  | EAppend d => (same_kind c d /\ l' = points c ++ points d) \/ (~ same_kind c d /\ l' = points c)
  | ESub b e => range (points c) l' b e
  | EReverse => l' = rev (points c)
  end.
(** The indices of the edit are in range; an inserted point is of the kind of the contour. *)
Definition indices_ok (c : mcontour PD) (e : @edit PD) : Prop :=
  match e with
  | EDelete n => n < size c
  | EInsert n p => n <= size c
  | ESub b e => b <= e <= size c
  | EAppend _ | EReverse => True
  end.
Definition well_kinded (c : mcontour PD) (e : @edit PD) : Prop :=
  match e with EInsert _ p => fits_in c p | _ => True end.

(** All but the handles of a variable-width stroke. *)
Definition settings (o : option (operations (mcontour PD))) : option (operations (mcontour PD)) :=
  match o with
  | Some (OpVws v) => Some (OpVws (mkVws [] (v_join v) (v_cap_start v) (v_cap_end v) (v_remove_internal v) (v_remove_external v)))
  | _ => o
  end.
(** The flag hyperbezier contours have. *)
Definition open_flag (c : mcontour PD) : option bool :=
  match mc_inner c with Hyper _ b => Some b | _ => None end.

(** Whether a contour is drawn as open: by the type of its first point or by its flag.  A contour
    of cubic points with less than two points counts as open. *)
Definition opened (c : mcontour PD) : Prop := inner_is_open (mc_inner c) = Ok true.
Definition closed (c : mcontour PD) : Prop := inner_is_open (mc_inner c) = Ok false.
(** No point but the first can say that the contour is open, as in every outline read from a file. *)
Definition not_a_move (m : mpoint PD) : Prop :=
  match m with MCubic p => pptype p <> Move | MQuad q => q_ptype q <> Move | MHyper _ => True end.
Definition moves_first (c : mcontour PD) : Prop := forall m, In m (tl (points c)) -> not_a_move m.

(** The methods that change a point. *)
Inductive change :=
| ChName (s : str) | ChSmooth (b : bool) | ChHandle (w : which) (h : handle) | ChColocate (w : which)
| ChHandleAt (w : which) (x y : f32) | ChMove (x y : f32) | ChMoveAlone (x y : f32).
Definition change_point (ch : change) (m : mpoint PD) : mpoint PD :=
  match ch with
  | ChName s => m_set_name m s
  | ChSmooth b => m_set_smooth m b
  | ChHandle w h => m_set_handle m w h
  | ChColocate w => m_colocate_handle m w
  | ChHandleAt w x y => m_set_handle_position m w x y
  | ChMove x y => m_set_position m x y
  | ChMoveAlone x y => m_set_position_no_handles m x y
  end.
End Spec.
