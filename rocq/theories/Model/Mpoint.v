(** The points of MFEK contours: cubic, quadratic and hyperbezier.  src/glif/mfek/point/*.rs. *)
Require Import Coq.Lists.List Coq.Bool.Bool.
Require Import Verif.Model.Base Verif.Model.Float Verif.Model.Num Verif.Model.Point.
Import ListNotations.

(** src/glif/mfek/point/quad.rs L11-23 *)
Record qpoint {PD : Type} := mkQ {
  q_x : f32; q_y : f32; q_a : handle; q_name : option str; q_ptype : ptype; q_smooth : bool;
  q_data : option PD
}.
Arguments qpoint : clear implicits.
Arguments mkQ {PD}.

(** src/glif/mfek/point/hyper.rs L140-145 *)
Inductive hyper_kind := HCurve | HLine.
(** src/glif/mfek/point/hyper.rs L10-22 *)
Record hpoint {PD : Type} := mkH {
  h_x : f32; h_y : f32; h_a : handle; h_b : handle; h_kind : hyper_kind; h_smooth : bool;
  h_data : option PD
}.
Arguments hpoint : clear implicits.
Arguments mkH {PD}.

(** A `dyn MFEKPointCommon`: one of the three implementations (src/glif/mfek/point/mod.rs L10-29). *)
Inductive mpoint {PD : Type} := MCubic (p : point PD) | MQuad (p : qpoint PD) | MHyper (p : hpoint PD).
Arguments mpoint : clear implicits.

Section Mpoint.
Context {PD : Type}.
Implicit Types m : mpoint PD.

(** src/glif/mfek/point/quad.rs L31-33 *)
Definition q_from_x_y_type (x y : f32) (t : ptype) : qpoint PD := mkQ x y Colocated None t false None.
(** src/glif/mfek/point/hyper.rs L25-33 *)
Definition h_new (x y : f32) (k : hyper_kind) (smooth : bool) : hpoint PD :=
  mkH x y Colocated Colocated k smooth None.

(** has_handle: src/glif/mfek/point/mod.rs L32-34, src/glif/mfek/point/quad.rs L37-41, src/glif/mfek/point/hyper.rs L37-39 *)
Definition m_has_handle m (w : which) : bool :=
  match m with
  | MCubic _ => true
  | MQuad _ => match w with WA => true | _ => false end
  | MHyper _ => true
  end.

(** get_handle: src/glif/mfek/point/mod.rs L36-42, src/glif/mfek/point/quad.rs L43-49, src/glif/mfek/point/hyper.rs L41-47 *)
Definition m_get_handle m (w : which) : option handle :=
  match m with
  | MCubic p => match w with Neither => None | WA => Some (pa p) | WB => Some (pb p) end
  | MQuad p => match w with WA => Some (q_a p) | _ => None end
  | MHyper p => match w with Neither => None | WA => Some (h_a p) | WB => Some (h_b p) end
  end.

(** Assignment to `self.a`, src/glif/mfek/point/quad.rs L51-69. *)
Definition q_with_a (p : qpoint PD) (h : handle) : qpoint PD :=
  mkQ (q_x p) (q_y p) h (q_name p) (q_ptype p) (q_smooth p) (q_data p).
(** Assignment to `self.a`, src/glif/mfek/point/hyper.rs L49-55. *)
Definition h_with_a (p : hpoint PD) (h : handle) : hpoint PD :=
  mkH (h_x p) (h_y p) h (h_b p) (h_kind p) (h_smooth p) (h_data p).
(** Assignment to `self.b`, src/glif/mfek/point/hyper.rs L49-55. *)
Definition h_with_b (p : hpoint PD) (h : handle) : hpoint PD :=
  mkH (h_x p) (h_y p) (h_a p) h (h_kind p) (h_smooth p) (h_data p).

(** set_handle: src/glif/mfek/point/mod.rs L71-77, src/glif/mfek/point/quad.rs L51-55, src/glif/mfek/point/hyper.rs L49-55 *)
Definition m_set_handle m (w : which) (h : handle) : mpoint PD :=
  match m with
  | MCubic p => MCubic (match w with Neither => p | WA => with_a p h | WB => with_b p h end)
  | MQuad p => MQuad (match w with WA => q_with_a p h | _ => p end)
  | MHyper p => MHyper (match w with Neither => p | WA => h_with_a p h | WB => h_with_b p h end)
  end.

(** colocate_handle: src/glif/mfek/point/mod.rs L135-141, src/glif/mfek/point/quad.rs L122-126, src/glif/mfek/point/hyper.rs L124-130 *)
Definition m_colocate_handle m (w : which) : mpoint PD :=
  match m with
  | MCubic p => MCubic (match w with Neither => p | WA => with_a p Colocated | WB => with_b p Colocated end)
  | MQuad p => MQuad (match w with WA => q_with_a p Colocated | _ => p end)
  | MHyper p => MHyper (match w with Neither => p | WA => h_with_a p Colocated | WB => h_with_b p Colocated end)
  end.

(** get_handle_position: src/glif/mfek/point/mod.rs L44-57, src/glif/mfek/point/quad.rs L57-63, src/glif/mfek/point/hyper.rs L57-63 *)
Definition m_get_handle_position m (w : which) : option (f32 * f32) :=
  match m_get_handle m w with Some (At x y) => Some (x, y) | _ => None end.

(** set_handle_position: src/glif/mfek/point/mod.rs L59-69, src/glif/mfek/point/quad.rs L65-69, src/glif/mfek/point/hyper.rs L65-67 *)
Definition m_set_handle_position m (w : which) (x y : f32) : mpoint PD :=
  match m with
  | MCubic p => MCubic (match w with Neither => p | WA => with_a p (At x y) | WB => with_b p (At x y) end)
  | MQuad p => MQuad (match w with WA => q_with_a p (At x y) | _ => p end)
  | MHyper _ => m_set_handle m w (At x y)
  end.

(** x, y, get_position: src/glif/mfek/point/mod.rs L79-81 L107-113, src/glif/mfek/point/quad.rs L71-77 L87-89, src/glif/mfek/point/hyper.rs L69-75 L84-86 *)
Definition m_position m : f32 * f32 :=
  match m with
  | MCubic p => (px p, py p)
  | MQuad p => (q_x p, q_y p)
  | MHyper p => (h_x p, h_y p)
  end.

(** get_name, set_name: src/glif/mfek/point/mod.rs L115-121, src/glif/mfek/point/quad.rs L79-85, src/glif/mfek/point/hyper.rs L77-82 *)
Definition m_get_name m : option str :=
  match m with MCubic p => pname p | MQuad p => q_name p | MHyper _ => None end.
(** src/glif/mfek/point/mod.rs L119-121, src/glif/mfek/point/quad.rs L83-85, src/glif/mfek/point/hyper.rs L81-82. *)
Definition m_set_name m (n : str) : mpoint PD :=
  match m with
  | MCubic p => MCubic (mkPoint (px p) (py p) (pa p) (pb p) (Some n) (pptype p) (psmooth p) (pdata p))
  | MQuad p => MQuad (mkQ (q_x p) (q_y p) (q_a p) (Some n) (q_ptype p) (q_smooth p) (q_data p))
  | MHyper _ => m
  end.

(** get_smooth, set_smooth: src/glif/mfek/point/mod.rs L143-149, src/glif/mfek/point/quad.rs L128-134, src/glif/mfek/point/hyper.rs L132-138 *)
Definition m_get_smooth m : option bool :=
  match m with MCubic p => Some (psmooth p) | _ => None end.
(** src/glif/mfek/point/mod.rs L147-149, src/glif/mfek/point/quad.rs L132-134, src/glif/mfek/point/hyper.rs L136-138. *)
Definition m_set_smooth m (b : bool) : mpoint PD :=
  match m with MCubic p => MCubic (with_smooth p b) | _ => m end.

(** Lines 87-98 of src/glif/mfek/point/mod.rs and their likes: a placed handle is moved by the difference.
    src/glif/mfek/point/mod.rs L83-100, src/glif/mfek/point/quad.rs L91-103, src/glif/mfek/point/hyper.rs L88-105. *)
Definition shift_handle (dx dy : f32) (h : handle) : handle :=
  match h with
  | At hx hy => At (sub32 hx dx) (sub32 hy dy)
  | Colocated => Colocated
  end.

(** set_position: src/glif/mfek/point/mod.rs L83-100, src/glif/mfek/point/quad.rs L91-103, src/glif/mfek/point/hyper.rs L88-105 *)
Definition m_set_position m (x y : f32) : mpoint PD :=
  match m with
  | MCubic p =>
      let dx := sub32 (px p) x in
      let dy := sub32 (py p) y in
      MCubic (mkPoint x y (shift_handle dx dy (pa p)) (shift_handle dx dy (pb p))
                      (pname p) (pptype p) (psmooth p) (pdata p))
  | MQuad p =>
      let dx := sub32 (q_x p) x in
      let dy := sub32 (q_y p) y in
      MQuad (mkQ x y (shift_handle dx dy (q_a p)) (q_name p) (q_ptype p) (q_smooth p) (q_data p))
  | MHyper p =>
      let dx := sub32 (h_x p) x in
      let dy := sub32 (h_y p) y in
      MHyper (mkH x y (shift_handle dx dy (h_a p)) (shift_handle dx dy (h_b p))
                  (h_kind p) (h_smooth p) (h_data p))
  end.

(** set_position_no_handles: src/glif/mfek/point/mod.rs L102-105, src/glif/mfek/point/quad.rs L105-108, src/glif/mfek/point/hyper.rs L107-110 *)
Definition m_set_position_no_handles m (x y : f32) : mpoint PD :=
  match m with
  | MCubic p => MCubic (with_xy p x y)
  | MQuad p => MQuad (mkQ x y (q_a p) (q_name p) (q_ptype p) (q_smooth p) (q_data p))
  | MHyper p => MHyper (mkH x y (h_a p) (h_b p) (h_kind p) (h_smooth p) (h_data p))
  end.

(** cubic, quad, hyper: src/glif/mfek/point/mod.rs L123-133, src/glif/mfek/point/quad.rs L110-120, src/glif/mfek/point/hyper.rs L112-122 *)
Definition m_cubic m : option (point PD) := match m with MCubic p => Some p | _ => None end.
(** src/glif/mfek/point/mod.rs L127-129, src/glif/mfek/point/quad.rs L114-116, src/glif/mfek/point/hyper.rs L116-118. *)
Definition m_quad m : option (qpoint PD) := match m with MQuad p => Some p | _ => None end.
(** src/glif/mfek/point/mod.rs L131-133, src/glif/mfek/point/quad.rs L118-120, src/glif/mfek/point/hyper.rs L120-122. *)
Definition m_hyper m : option (hpoint PD) := match m with MHyper p => Some p | _ => None end.

End Mpoint.
