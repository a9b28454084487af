(** How many files are read for the components of a glyph.  src/component.rs. *)
Require Import Coq.Strings.String Coq.Lists.List Coq.NArith.NArith.
Require Import Verif.Model.Base Verif.Model.Text Verif.Model.Num Verif.Model.Point Verif.Model.Names Verif.Model.Xml Verif.Model.Parts Verif.Model.Component.
Import ListNotations.

Section Cost.
Context (L : numlib) {PD PL : Type} (pd0 : PD) (P : plistlib PL).
Context {T : Type} (files : path -> option T) (parse : T -> option element).

(** The calls of `to_component` (which reads a file, src/component.rs L125-146) in the loop at
    src/component.rs L317-327, with those of the recursive calls: [rec] is what these give, [cost]
    how many they make.  The loop ends with the first error. *)
Fixpoint children_reads (rec : list str -> component PD PL -> option (res (ctree PD PL * list str))) (cost : list str -> component PD PL -> nat)
  (u : list str) (gcs : list glifcomponent) : nat :=
  match gcs with
  | [] => 0
  | gc :: gcs =>
      if set_mem (c_base gc) u then 0
      else
        match to_component L pd0 P files parse gc with
        | Ok c =>
            1 + cost (c_base gc :: u) c +
            match rec (c_base gc :: u) c with
            | Some (Ok (_, u')) => children_reads rec cost (set_remove (c_base gc) u') gcs
            | _ => 0
            end
        | _ => 1
        end
  end.
(** src/component.rs L311-330 *)
Fixpoint tree_reads (fuel : nat) (root : str) (u : list str) (c : component PD PL) : nat :=
  match fuel with
  | O => 0
  | S f => children_reads (build_component_tree L pd0 P files parse f root) (tree_reads f root) u (cs_vec (g_components (cp_glif c)))
  end.
(** src/component.rs L284-299 *)
Fixpoint forest_loop_reads (fuel : nat) (root : str) (u : list str) (gcs : list glifcomponent) : nat :=
  match gcs with
  | [] => 0
  | gc :: gcs =>
      match to_component L pd0 P files parse gc with
      | Ok c =>
          1 + tree_reads fuel root u c +
          match build_component_tree L pd0 P files parse fuel root u c with
          | Some (Ok (_, u')) => forest_loop_reads fuel root u' gcs
          | _ => 0
          end
      | _ => 1
      end
  end.
(** src/component.rs L284-299 *)
Definition forest_reads (fuel : nat) (cs : glifcomponents) : nat := forest_loop_reads fuel (cs_root cs) (cs_uniques cs) (cs_vec cs).
End Cost.
