(** Points, handles, point types.  src/point.rs, src/point/conv.rs, src/point/valid.rs. *)
Require Import Coq.Lists.List Coq.NArith.NArith Coq.ZArith.ZArith Coq.Bool.Bool Coq.Strings.String.
Require Import Verif.Model.Base Verif.Model.Text Verif.Model.Float Verif.Model.Num.
Import ListNotations.

(** src/point.rs L66-71 *)
Inductive handle := At (x y : f32) | Colocated.

(** src/point.rs L18-27 *)
Record glifpoint := mkGP {
  gx : iof; gy : iof; gsmooth : bool; gname : option str; gptype : ptype
}.

(** src/point.rs L141-159 *)
Record point {PD : Type} := mkPoint {
  px : f32; py : f32; pa : handle; pb : handle;
  pname : option str; pptype : ptype; psmooth : bool; pdata : option PD
}.
Arguments point : clear implicits.
Arguments mkPoint {PD}.

(** src/point.rs L161-172 *)
Inductive which := Neither | WA | WB.

Section Point.
Context {PD : Type}.
Implicit Types p : point PD.

(** Assignment to the field `a` of src/point.rs L140-157. *)
Definition with_a p h := mkPoint (px p) (py p) h (pb p) (pname p) (pptype p) (psmooth p) (pdata p).
(** Assignment to the field `b` of src/point.rs L140-157. *)
Definition with_b p h := mkPoint (px p) (py p) (pa p) h (pname p) (pptype p) (psmooth p) (pdata p).
(** Assignment to the field `ptype` of src/point.rs L140-157. *)
Definition with_ptype p t := mkPoint (px p) (py p) (pa p) (pb p) (pname p) t (psmooth p) (pdata p).
(** Assignment to the field `smooth` of src/point.rs L140-157. *)
Definition with_smooth p b := mkPoint (px p) (py p) (pa p) (pb p) (pname p) (pptype p) b (pdata p).
(** Assignment to the fields `x`, `y` of src/point.rs L140-157. *)
Definition with_xy p x y := mkPoint x y (pa p) (pb p) (pname p) (pptype p) (psmooth p) (pdata p).

(** `Point::default()`: derived Default, L140; PointType default OffCurve L268-270, Handle
    default Colocated L264-266. *)
Definition point_default : point PD :=
  mkPoint pos_zero pos_zero Colocated Colocated None OffCurve false None.

(** src/point.rs L255-262, only in debug builds. *)
Definition check_ptype (dbg : bool) (t : ptype) : res unit :=
  if dbg && ptype_eqb t OffCurve then Panic else Ok tt.

(** src/point.rs L179-192 *)
Definition from_x_y_type (dbg : bool) (x y : f32) (t : ptype) : res (point PD) :=
  let* _ := check_ptype dbg t in
  Ok (mkPoint x y Colocated Colocated None t false None).
(** src/point.rs L183-186. *)
Definition from_x_y_a_b_type (dbg : bool) (x y : f32) (a b : handle) (t : ptype) : res (point PD) :=
  let* _ := check_ptype dbg t in
  Ok (mkPoint x y a b None t false None).

(** src/point.rs L194-203 *)
Definition get_handle p (w : which) : handle :=
  match w with WA => pa p | WB => pb p | Neither => Colocated end.

(** src/point.rs L207-218 *)
Definition handle_or_colocated p (w : which) (tx ty : f32 -> f32) : f32 * f32 :=
  match get_handle p w with
  | At x y => (tx x, ty y)
  | Colocated => (tx (px p), ty (py p))
  end.

(** src/point.rs L246-252 *)
Definition set_handle p (w : which) (h : handle) : point PD :=
  match w with WA => with_a p h | WB => with_b p h | Neither => p end.

(** src/point/valid.rs L35-56; [pdv] is the `is_valid` of the point data (always true for the
    types of the crate: the blanket implementation src/point.rs L138 gives the default). *)
Definition point_is_valid (pdv : PD -> bool) p : bool :=
  match pdata p with
  | Some d => pdv d
  | None => true
  end
  && negb (ptype_eqb (pptype p) Undefined)
  && negb (is_nan (px p) || is_subnormal (py p))
  && forallb (fun h => match h with
                       | At hx hy => negb (is_nan hx || is_subnormal hy)
                       | Colocated => true
                       end) [pa p; pb p].

End Point.

(** src/point.rs L73-80 *)
Definition handle_of_gp (o : option glifpoint) : handle :=
  match o with
  | Some p => At (f32_of_iof (gx p)) (f32_of_iof (gy p))
  | None => Colocated
  end.

(** src/point.rs L277-288, used through From<&str> L320-324 *)
Definition ptype_of_str (s : str) : ptype :=
  if str_eqb s (lit "move") then Move
  else if str_eqb s (lit "line") then Line
  else if str_eqb s (lit "qcurve") then QCurve
  else if str_eqb s (lit "curve") then Curve
  else OffCurve.

(** src/point.rs L380-392 *)
Definition ptype_show (t : ptype) : str :=
  match t with
  | Undefined => lit "undefined"
  | OffCurve => lit "offcurve"
  | QClose => lit "qclose"
  | Move => lit "move"
  | Curve => lit "curve"
  | QCurve => lit "qcurve"
  | Line => lit "line"
  end.

(** src/point.rs L361-368 *)
Definition ptype_is_valid (t : ptype) : bool :=
  match t with Move | Line | QCurve | Curve | OffCurve => true | _ => false end.
(** src/point.rs L370-378. *)
Definition is_valid_oncurve (t : ptype) : bool :=
  if ptype_eqb t OffCurve then false else ptype_is_valid t.

(** src/point.rs L311-318 *)
Definition ptype_of_handle (h : handle) : ptype :=
  match h with At _ _ => Curve | Colocated => Line end.

(** src/point.rs L298-309; debug builds check that an unknown character is NUL. *)
Definition which_of_char (dbg : bool) (c : N) : res which :=
  if existsb (N.eqb c) [65; 97; 65313; 65345]%N then Ok WA
  else if existsb (N.eqb c) [66; 98; 65314; 65346]%N then Ok WB
  else if dbg && negb (N.eqb c 0) then Panic else Ok Neither.

(** src/point.rs L332-343 *)
Definition which_opposite (w : which) : which :=
  match w with WA => WB | WB => WA | Neither => Neither end.

(** src/point.rs L345-349 *)
Definition which_is_valid (w : which) : bool :=
  match w with WA | WB => true | Neither => false end.

(** src/point.rs L351-359 *)
Definition char_of_which (w : which) : N :=
  match w with WA => 65 | WB => 66 | Neither => 0 end.

(** src/point/valid.rs L75-96 *)
Definition gp_is_valid (g : glifpoint) : bool :=
  let bad i := match i with
               | IFloat f => is_subnormal f || is_nan f
               | IInt _ => false
               end in
  negb (ptype_eqb (gptype g) Undefined) && negb (bad (gx g)) && negb (bad (gy g)).

Section Conv.
Context (L : numlib) {PD : Type}.

(** src/point.rs L30-33 with f32 coordinates (`Into<IntegerOrFloat>`). *)
Definition gp_from_x_y_type (x y : f32) (t : ptype) : glifpoint :=
  mkGP (iof_of_f32 L x) (iof_of_f32 L y) false None t.

(** src/point/conv.rs L13-18 *)
Definition gp_from_handle (p : point PD) (w : which) : glifpoint :=
  let '(x, y) := handle_or_colocated p w (fun f => f) (fun f => f) in
  gp_from_x_y_type x y OffCurve.

(** src/point/conv.rs L21-32 *)
Definition gp_of_point (p : point PD) : glifpoint :=
  mkGP (iof_of_f32 L (px p)) (iof_of_f32 L (py p)) (psmooth p) (pname p) (pptype p).

(** src/point/conv.rs L34-45 *)
Definition point_of_gp (g : glifpoint) : point PD :=
  mkPoint (f32_of_iof (gx g)) (f32_of_iof (gy g)) Colocated Colocated (gname g) (gptype g) (gsmooth g) None.

(** src/point.rs L220-231 *)
Definition handle_as_gpoint (p : point PD) (w : which) : glifpoint :=
  let '(x, y) := match get_handle p w with
                 | At x y => (x, y)
                 | Colocated => (px p, py p)
                 end in
  gp_from_x_y_type x y OffCurve.

(** src/point.rs L233-235 *)
Definition handle_as_point (p : point PD) (w : which) : point PD :=
  point_of_gp (handle_as_gpoint p w).

End Conv.
