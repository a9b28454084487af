(** Points, histories of edits, stroke widths, layer lists and exact values of floats. *)
Require Import Coq.Strings.String Coq.Lists.List Coq.Arith.Arith Coq.ZArith.ZArith Coq.QArith.QArith Coq.Floats.SpecFloat.
Require Import Verif.Model.Base Verif.Model.Text Verif.Model.Float Verif.Model.Point Verif.Model.Contour
  Verif.Model.Names Verif.Model.Mpoint Verif.Model.Mfek.
Import ListNotations.
Local Open Scope nat_scope.

(** * Exact values *)
Definition value (f : spec_float) : option Q :=
  match f with
  | S754_zero _ => Some 0%Q
  | S754_finite s m e => Some (inject_Z (cond_Zopp s (Zpos m)) * 2 ^ e)%Q
  | _ => None
  end.
(** The 32-bit float is z steps of the grid with step 2^k. *)
Definition on_grid (k : Z) (f : f32) (z : Z) : Prop :=
  valid32 f = true /\ exists q, value f = Some q /\ (q == inject_Z z * 2 ^ k)%Q.
Definition same_value (f : spec_float) (q : Q) : Prop := exists v, value f = Some v /\ (v == q)%Q.
(** Steps a 32-bit float can count exactly; grids in its range. *)
Definition countable (z : Z) : Prop := (Z.abs z < 2 ^ 24)%Z.
Definition grid32 (k : Z) : Prop := (-149 <= k <= 104)%Z.

Section Spec.
Context {PD : Type}.

(** Everything about a point but its position and handles. *)
Definition rest (m : mpoint PD) : option str * option ptype * option hyper_kind * bool * option PD :=
  match m with
  | MCubic p => (pname p, Some (pptype p), None, psmooth p, pdata p)
  | MQuad p => (q_name p, Some (q_ptype p), None, q_smooth p, q_data p)
  | MHyper p => (None, None, Some (h_kind p), h_smooth p, h_data p)
  end.
(** The handles a point has: quadratic points have no B. *)
Definition offers (m : mpoint PD) (w : which) : Prop :=
  match w, m with Neither, _ => False | WB, MQuad _ => False | _, _ => True end.

(** * Points of a contour *)
Definition points (c : mcontour PD) : list (mpoint PD) :=
  match mc_inner c with
  | Cubic l => map MCubic l
  | Quad l => map MQuad l
  | Hyper l _ => map MHyper l
  end.
Definition size (c : mcontour PD) : nat := length (points c).
(** Stroke handles of a variable-width contour. *)
Definition handles (c : mcontour PD) : option (list vws_handle) :=
  match mc_op c with Some (OpVws v) => Some (v_handles v) | _ => None end.
Definition in_step (c : mcontour PD) : Prop := forall h, handles c = Some h -> length h = size c.
(** Points with their stroke handles. *)
Definition strokes (c : mcontour PD) : option (list (mpoint PD * vws_handle)) :=
  match handles c with Some h => Some (combine (points c) h) | None => None end.

(** A point of the same kind as those of the contour. *)
Definition fits_in (c : mcontour PD) (p : mpoint PD) : Prop :=
  match mc_inner c, p with
  | Cubic _, MCubic _ | Quad _, MQuad _ | Hyper _ _, MHyper _ => True
  | _, _ => False
  end.
Definition same_kind (c d : mcontour PD) : Prop :=
  match mc_inner c, mc_inner d with
  | Cubic _, Cubic _ | Quad _, Quad _ | Hyper _ _, Hyper _ _ => True
  | _, _ => False
  end.

(** * Edits: what a program does with one contour *)
Inductive edit :=
| EDelete (n : nat)                     (* contour.delete(n) *)
| EInsert (n : nat) (p : mpoint PD)     (* points.insert(n, p) and operation.insert_op(n) *)
| EAppend (other : mcontour PD)         (* contour.append(&other), whatever it returns *)
| ESub (b e : nat)                      (* contour = contour.sub(b, e) *)
| EReverse.                             (* contour.reverse_points() *)

Definition insert_point (i : inner PD) (n : nat) (p : mpoint PD) : res (inner PD) :=
  match i, p with
  | Cubic l, MCubic p => let* l := vec_insert l n p in Ok (Cubic l)
  | Quad l, MQuad p => let* l := vec_insert l n p in Ok (Quad l)
  | Hyper l o, MHyper p => let* l := vec_insert l n p in Ok (Hyper l o)
  | _, _ => Panic
  end.
Definition do_edit (c : mcontour PD) (e : edit) : res (mcontour PD) :=
  match e with
  | EDelete n => mc_delete c n
  | EInsert n p =>
      let* i := insert_point (mc_inner c) n p in
      let* o := op_insert (mc_op c) n in
      Ok (MC i o)
  | EAppend other => Ok (match mc_append c other with Some c' => c' | None => c end)
  | ESub b e => mc_sub c b e
  | EReverse => Ok (mc_reverse c)
  end.
Fixpoint run (c : mcontour PD) (l : list edit) : res (mcontour PD) :=
  match l with [] => Ok c | e :: l => let* c := do_edit c e in run c l end.

(** Indices in range; contours appended are in step themselves. *)
Definition in_range (c : mcontour PD) (e : edit) : Prop :=
  match e with
  | EDelete n => n < size c
  | EInsert n p => n <= size c /\ fits_in c p
  | EAppend other => in_step other
  | ESub b e => b <= e /\ e <= size c
  | EReverse => True
  end.
(** The same, without sub-ranges of a variable-width contour and without inserting a point
    after its last one. *)
Definition in_range' (c : mcontour PD) (e : edit) : Prop :=
  in_range c e /\
  match e with
  | EInsert n _ => handles c <> None -> n < size c
  | ESub _ _ => handles c = None
  | _ => True
  end.
(** Every edit of the history is allowed where it happens. *)
Fixpoint allowed (ok : mcontour PD -> edit -> Prop) (c : mcontour PD) (l : list edit) : Prop :=
  match l with
  | [] => True
  | e :: l => ok c e /\ (forall c', do_edit c e = Ok c' -> allowed ok c' l)
  end.

(** * What edits do to a list *)
Definition without {A} (l l' : list A) (n : nat) : Prop :=
  exists a x b, l = a ++ x :: b /\ length a = n /\ l' = a ++ b.
Definition with_at {A} (l l' : list A) (n : nat) (x : A) : Prop :=
  exists a b, l = a ++ b /\ length a = n /\ l' = a ++ x :: b.
Definition range {A} (l l' : list A) (b e : nat) : Prop :=
  exists a d, l = a ++ l' ++ d /\ length a = b /\ length a + length l' = e.

End Spec.

(** * Layer lists *)
Section Layers.
Context {PD : Type}.
(** The entry of the n-th layer: its name, with the default layer under its UFO name, and the
    directory of its glyphs. *)
Definition entry (n : nat) (l : layer PD) : pvalue :=
  PArray [PString (if str_eqb (l_name l) (lit "Layer 0") then lit "public.default" else l_name l);
          PString (if n =? 0 then lit "glyphs" else lit "glyphs." ++ name_to_filename (l_name l) false)].
(** The visible layers with their indices. *)
Definition visible (ls : list (layer PD)) : list (nat * layer PD) :=
  filter (fun nl => l_visible (snd nl)) (combine (seq 0 (length ls)) ls).
End Layers.
(** [l'] is [l] with repeated and unwanted elements left out: it holds each wanted element of
    [l] once, in the order in which [l] first mentions them. *)
Inductive firsts {A} (wanted : A -> Prop) : list A -> list A -> Prop :=
| firsts_end : firsts wanted [] []
| firsts_take x l l' : wanted x -> firsts (fun y => wanted y /\ y <> x) l l' -> firsts wanted (x :: l) (x :: l')
| firsts_skip x l l' : ~ wanted x -> firsts wanted l l' -> firsts wanted (x :: l) l'.
