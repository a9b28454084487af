(** Matrices, component trees and flattening.  src/matrix.rs, src/component.rs. *)
Require Import Coq.Lists.List Coq.NArith.NArith Coq.ZArith.ZArith Coq.Bool.Bool Coq.Strings.String.
Require Import Verif.Model.Base Verif.Model.Text Verif.Model.Float Verif.Model.Num
  Verif.Model.Point Verif.Model.Contour Verif.Model.Names Verif.Model.Pedantry Verif.Model.Xml
  Verif.Model.Parts Verif.Model.Read.
Import ListNotations.

(** kurbo::Affine (external crate): six coefficients; the product with a point is
    (c0 x + c2 y + c4, c1 x + c3 y + c5).
    src/matrix.rs L18-23. *)
Record affine := mkAffine { c0 : f64; c1 : f64; c2 : f64; c3 : f64; c4 : f64; c5 : f64 }.
(** `matrix * KurboPoint`, src/matrix.rs L31. *)
Definition affine_apply (m : affine) (x y : f64) : f64 * f64 :=
  (add64 (add64 (mul64 (c0 m) x) (mul64 (c2 m) y)) (c4 m),
   add64 (add64 (mul64 (c1 m) x) (mul64 (c3 m) y)) (c5 m)).

(** src/matrix.rs L18-23 *)
Definition affine_of_matrix (m : glifmatrix) : affine :=
  mkAffine (f64_of_iof (m_xScale m)) (f64_of_iof (m_xyScale m)) (f64_of_iof (m_yxScale m))
           (f64_of_iof (m_yScale m)) (f64_of_iof (m_xOffset m)) (f64_of_iof (m_yOffset m)).

Section Component.
Context (L : numlib) {PD PL : Type} (pd0 : PD) (P : plistlib PL).

(** src/matrix.rs L31-33, L36-37, L41-42: one position through f64 and back. *)
Definition apply_xy (m : affine) (x y : f32) : f32 * f32 :=
  let '(x', y') := affine_apply m (f64_of_f32 x) (f64_of_f32 y) in
  (f32_of_f64 x', f32_of_f64 y').
(** src/matrix.rs L35-43. *)
Definition apply_handle (m : affine) (h : handle) : handle :=
  match h with
  | At x y => let '(x', y') := apply_xy m x y in At x' y'
  | Colocated => Colocated
  end.
(** src/matrix.rs L29-45 *)
Definition apply_matrix (m : affine) (p : point PD) : point PD :=
  let '(x, y) := apply_xy m (px p) (py p) in
  mkPoint x y (apply_handle m (pa p)) (apply_handle m (pb p)) (pname p) (pptype p) (psmooth p) (pdata p).

(** src/component.rs L82-85 *)
Record component := mkComp { cp_glif : glif PD PL; cp_matrix : affine }.

(** Trees of the crate `trees`.
    `Tree<Component>`, src/component.rs L315, L325. *)
Inductive ctree := CNode (data : component) (children : list ctree).
(** `Node::data`, src/component.rs L172, L181. *)
Definition cdata (t : ctree) : component := let 'CNode d _ := t in d.
(** Children in push order, src/component.rs L239-242, L325. *)
Definition cchildren (t : ctree) : list ctree := let 'CNode _ c := t in c.

(** The file system and the external XML parser. *)
Context {T : Type} (files : path -> option T) (parse : T -> option element).

(** src/component.rs L125-146; `glif::read` is reading with default pedantry. *)
Definition to_component (c : glifcomponent) : res component :=
  let* fn := ok_or (c_filename c) (EFilenameNotSet (c_base c)) in
  let* txt := ok_or (files fn) (EFilenameNotSet (lit "Glif filename leads to unreadable file")) in
  let* root := ok_or (parse txt) EXmlParse in
  let* new := read_element L pd0 P pedantry_default root in
  let ncs := g_components new in
  let cs := mkComponents (cs_root ncs) (map (fun c => component_set_file_name c fn) (cs_vec ncs)) (cs_uniques ncs) in
  Ok (mkComp (mkGlif (g_outline new) (g_anchors new) cs [] [] None [] (c_base c) None (c_filename c) LNone)
             (affine_of_matrix (c_matrix c))).

(** `HashSet::insert` (false if present) and `remove`.
    src/component.rs L318. *)
Definition set_mem (s : str) (u : list str) : bool := existsb (str_eqb s) u.
(** src/component.rs L326. *)
Definition set_remove (s : str) (u : list str) : list str := filter (fun x => negb (str_eqb s x)) u.

(** src/component.rs L311-330: the loop over the components of one component (L317-327), with
    the recursive call [rec]. *)
Fixpoint build_children (rec : list str -> component -> option (res (ctree * list str)))
  (root from : str) (u : list str) (gcs : list glifcomponent)
  : option (res (list ctree * list str)) :=
  match gcs with
  | [] => Some (Ok ([], u))
  | gc :: gcs =>
      if set_mem (c_base gc) u then Some (Err (ECyclical (c_base gc) from root))
      else
        match to_component gc with
        | Err e => Some (Err e)
        | Panic => Some Panic
        | Ok c =>
            match rec (c_base gc :: u) c with
            | None => None
            | Some (Err e) => Some (Err e)
            | Some Panic => Some Panic
            | Some (Ok (t, u')) =>
                match build_children rec root from (set_remove (c_base gc) u') gcs with
                | Some (Ok (ts, u'')) => Some (Ok (t :: ts, u''))
                | r => r
                end
            end
        end
  end.

(** src/component.rs L311-330; [None] is running out of fuel. *)
Fixpoint build_component_tree (fuel : nat) (root : str) (u : list str) (c : component)
  : option (res (ctree * list str)) :=
  match fuel with
  | O => None
  | S f =>
      match build_children (build_component_tree f root) root (g_name (cp_glif c)) u
              (cs_vec (g_components (cp_glif c))) with
      | Some (Ok (ts, u')) => Some (Ok (CNode c ts, u'))
      | Some (Err e) => Some (Err e)
      | Some Panic => Some Panic
      | None => None
      end
  end.

(** src/component.rs L284-299: the components of the glyph itself (their names are not
    entered in `uniques`). *)
Fixpoint build_forest_loop (fuel : nat) (root : str) (u : list str) (gcs : list glifcomponent)
  : option (res (list ctree)) :=
  match gcs with
  | [] => Some (Ok [])
  | gc :: gcs =>
      match to_component gc with
      | Err e => Some (Err e)
      | Panic => Some Panic
      | Ok c =>
          match build_component_tree fuel root u c with
          | None => None
          | Some (Err e) => Some (Err e)
          | Some Panic => Some Panic
          | Some (Ok (t, u')) =>
              match build_forest_loop fuel root u' gcs with
              | Some (Ok ts) => Some (Ok (t :: ts))
              | r => r
              end
          end
      end
  end.
(** `From<GlifComponents> for Result<Forest<..>, _>`, src/component.rs L284-299. *)
Definition build_forest (fuel : nat) (cs : glifcomponents) : option (res (list ctree)) :=
  build_forest_loop fuel (cs_root cs) (cs_uniques cs) (cs_vec cs).

(** src/component.rs L95-101 *)
Record comp_rect := mkRect { r_minx : f32; r_miny : f32; r_maxx : f32; r_maxy : f32; r_name : str }.
(** The four accumulators of src/component.rs L163-170, L234. *)
Definition bounds := (f32 * f32 * f32 * f32)%type.    (* minx, miny, maxx, maxy *)

(** src/component.rs L186-199: update of the bounds with one (untransformed) point. *)
Definition update_bounds (is_first : bool) (b : bounds) (p : point PD) : bounds :=
  let '(minx, miny, maxx, maxy) := b in
  (if flt (px p) minx || is_first then px p else minx,
   if flt (py p) miny || is_first then py p else miny,
   if flt maxx (px p) || is_first then px p else maxx,
   if flt maxy (py p) || is_first then py p else maxy).

(** src/component.rs L185-206: the points of contour i, from point j on. *)
Fixpoint apply_points (ms : list affine) (i j : nat) (b : bounds) (c : contour PD) : contour PD * bounds :=
  match c with
  | [] => ([], b)
  | p :: c =>
      let b := update_bounds ((i =? 0) && (j =? 0))%nat b p in
      let p' := fold_left (fun p m => apply_matrix m p) ms p in
      let '(c', b) := apply_points ms i (S j) b c in
      (p' :: c', b)
  end.
(** src/component.rs L184-207 *)
Fixpoint apply_contours (ms : list affine) (i : nat) (b : bounds) (o : outline PD) : outline PD * bounds :=
  match o with
  | [] => ([], b)
  | c :: o =>
      let '(c', b) := apply_points ms i 0 b c in
      let '(o', b) := apply_contours ms (S i) b o in
      (c' :: o', b)
  end.

(** src/component.rs L163-212; [ancestors] are the matrices of the parents from inside out. *)
Definition apply_component_rect (c : component) (ancestors : list affine) (b : bounds) (final : outline PD)
  : outline PD * bounds :=
  match g_outline (cp_glif c) with
  | Some o =>
      let '(o', b) := apply_contours (cp_matrix c :: ancestors) 0 b o in
      (final ++ o', b)
  | None => (final, b)
  end.

(** src/component.rs L239-242: `while let Some(last) = component.back() { ..; pop_back() }`:
    the direct children from last to first; [rchildren] is the reversed list. *)
Fixpoint apply_back (m : affine) (rchildren : list ctree) (b : bounds) (final : outline PD)
  : outline PD * bounds :=
  match rchildren with
  | [] => (final, b)
  | t :: ts =>
      let '(final, b) := apply_component_rect (cdata t) [m] b final in
      apply_back m ts b final
  end.

(** src/component.rs L233-244: one iteration of the loop over the forest. *)
Definition flatten_tree (t : ctree) (final : outline PD) : outline PD * comp_rect :=
  let zero := (pos_zero, pos_zero, pos_zero, pos_zero) in
  let '(final, b) := apply_component_rect (cdata t) [] zero final in
  let '(final, b) := apply_back (cp_matrix (cdata t)) (rev (cchildren t)) b final in
  let '(minx, miny, maxx, maxy) := b in
  (final, mkRect minx miny maxx maxy (g_name (cp_glif (cdata t)))).
(** src/component.rs L233-244. *)
Fixpoint flatten_forest (f : list ctree) (final : outline PD) : outline PD * list comp_rect :=
  match f with
  | [] => (final, [])
  | t :: f =>
      let '(final, r) := flatten_tree t final in
      let '(final, rs) := flatten_forest f final in
      (final, r :: rs)
  end.

(** src/component.rs L226-256 for [Glif] (outline field `outline`). *)
Definition flattened (fuel : nat) (rects : option (list comp_rect)) (g : glif PD PL)
  : option (res (glif PD PL * option (list comp_rect))) :=
  match build_forest fuel (g_components g) with
  | None => None
  | Some (Err e) => Some (Err e)
  | Some Panic => Some Panic
  | Some (Ok forest) =>
      let '(o, rs) := flatten_forest forest [] in
      let g' := mkGlif (Some o) (g_anchors g) components_default (g_guidelines g) (g_images g) (g_width g)
                       (g_unicode g) (g_name g) (g_note g) (g_filename g) (g_lib g) in
      Some (Ok (g', match rects with Some _ => Some rs | None => None end))
  end.

End Component.
Arguments component PD PL : clear implicits.
Arguments ctree PD PL : clear implicits.
