(** Making points, handles and guidelines from their parts.
    src/guideline.rs, src/point.rs, src/point/conv.rs, src/glif/mfek/pointdata.rs. *)
Require Import Coq.Lists.List Coq.ZArith.ZArith.
Require Import Verif.Model.Base Verif.Model.Text Verif.Model.Float Verif.Model.Num Verif.Model.Point
  Verif.Model.Color Verif.Model.Parts.
Import ListNotations.

Section Guideline.
Context (L : numlib) {PD : Type} (pd0 : PD).

(** `Guideline::new`: derived Default; [pd0] is the default of the point data.
    src/guideline.rs L28-37, L56-58. *)
Definition guideline_default : guideline PD :=
  mkGuideline pos_zero pos_zero (iof_default L) None None None pd0.
(** src/guideline.rs L60-66 *)
Definition guideline_from_x_y_angle (x y : f32) (angle : iof) : guideline PD :=
  let ret := guideline_default in
  mkGuideline x y angle (gl_name ret) (gl_color ret) (gl_identifier ret) (gl_data ret).
(** src/guideline.rs L68-71 *)
Definition guideline_name (g : guideline PD) (s : str) : guideline PD :=
  mkGuideline (gl_x g) (gl_y g) (gl_angle g) (Some s) (gl_color g) (gl_identifier g) (gl_data g).
(** src/guideline.rs L73-76 *)
Definition guideline_color (g : guideline PD) (c : color) : guideline PD :=
  mkGuideline (gl_x g) (gl_y g) (gl_angle g) (gl_name g) (Some c) (gl_identifier g) (gl_data g).
(** src/guideline.rs L78-81 *)
Definition guideline_identifier (g : guideline PD) (s : str) : guideline PD :=
  mkGuideline (gl_x g) (gl_y g) (gl_angle g) (gl_name g) (gl_color g) (Some s) (gl_data g).
(** src/guideline.rs L83-86 *)
Definition guideline_data (g : guideline PD) (d : PD) : guideline PD :=
  mkGuideline (gl_x g) (gl_y g) (gl_angle g) (gl_name g) (gl_color g) (gl_identifier g) d.

(** The calls src/guideline.rs L68-86 offers, and a chain of them. *)
Inductive gl_call := CallName (s : str) | CallColor (c : color) | CallIdentifier (s : str) | CallData (d : PD).
(** One call of a chain, src/guideline.rs L68-86. *)
Definition gl_do (g : guideline PD) (c : gl_call) : guideline PD :=
  match c with
  | CallName s => guideline_name g s
  | CallColor c => guideline_color g c
  | CallIdentifier s => guideline_identifier g s
  | CallData d => guideline_data g d
  end.
(** A chain of calls, src/guideline.rs L60-86. *)
Definition gl_chain (x y : f32) (angle : iof) (cs : list gl_call) : guideline PD :=
  fold_left gl_do cs (guideline_from_x_y_angle x y angle).
End Guideline.

(** src/point.rs L82-89 *)
Definition handle_of_option (o : option (f32 * f32)) : handle :=
  match o with Some (x, y) => At x y | None => Colocated end.
(** src/point.rs L91-95 *)
Definition handle_of_pair (xy : f32 * f32) : handle := At (fst xy) (snd xy).
(** src/point.rs L97-101 *)
Definition handle_of_unit (_ : unit) : handle := Colocated.
(** src/point/conv.rs L7-11 *)
Definition handle_of_point {PD} (p : point PD) : handle := At (px p) (py p).
(** src/point.rs L189-192 *)
Definition from_fields {PD} (dbg : bool) (x y : f32) (a b : handle) (smooth : bool) (t : ptype)
  (name : option str) (data : option PD) : res (point PD) :=
  let* _ := check_ptype dbg t in
  Ok (mkPoint x y a b name t smooth data).

(** `GlifPoint::from_x_y_type` for coordinates that are already numbers, src/point.rs L31-34. *)
Definition gp_of_nums (x y : iof) (t : ptype) : glifpoint := mkGP x y false None t.
(** src/point.rs L36-39 *)
Definition gp_name (g : glifpoint) (n : option str) : glifpoint := mkGP (gx g) (gy g) (gsmooth g) n (gptype g).

(** src/glif/mfek/pointdata.rs L2-7 *)
Record mfek_info := mkInfo { mi_fixed : bool; mi_format : bool; mi_right : bool }.
(** src/glif/mfek/pointdata.rs L9-11 *)
Inductive mfek_pd := PDGuideline (i : mfek_info).
(** src/glif/mfek/pointdata.rs L20-26 *)
Definition new_guideline_data (fixed format right : bool) : mfek_pd := PDGuideline (mkInfo fixed format right).
(** src/glif/mfek/pointdata.rs L27-34 *)
Definition as_guideline (d : mfek_pd) : mfek_info := match d with PDGuideline i => i end.
