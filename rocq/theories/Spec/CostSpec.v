(** How much is loaded for the components of a glyph. *)
Require Import Coq.Strings.String Coq.Lists.List Coq.NArith.NArith.
Require Import Verif.Model.Base Verif.Model.Text Verif.Model.Point Verif.Model.Names Verif.Model.Xml Verif.Model.Parts Verif.Model.Component.
Import ListNotations.
Local Open Scope nat_scope.
Local Open Scope list_scope.

(** The components in a tree, and in several. *)
Fixpoint nodes {PD PL} (t : ctree PD PL) : nat := let 'CNode _ ts := t in S (list_sum (map nodes ts)).
Definition nodes_of {PD PL} (ts : list (ctree PD PL)) : nat := list_sum (map nodes ts).

(** 1 + k + ... + k^n *)
Fixpoint powers (k n : nat) : nat := match n with O => 1 | S n => 1 + k * powers k n end.

(** A tower of glyphs "a", "aa", "aaa", ...: each but the first consists of the one before, twice. *)
Definition tower_name (m : nat) : str := repeat 97%N (S m).
Definition tower_doc (m : nat) : element :=
  let twice b := let c := Element (lit "component") [(lit "base", b)] [] in [NElem (Element (lit "outline") [] [NElem c; NElem c])] in
  Element (lit "glyph") [(lit "name", tower_name m); (lit "format", lit "2")]
    (match m with O => [] | S m => twice (tower_name m) end).
Definition tower_file (m : nat) : path := [tower_name m ++ lit ".glif"].
(** The files of the first n + 1 glyphs. *)
Definition tower (n : nat) : list (path * element) := map (fun m => (tower_file m, tower_doc m)) (seq 0 (S n)).
(** The file of that name in the list. *)
Fixpoint file_in {T} (l : list (path * T)) (p : path) : option T :=
  match l with
  | [] => None
  | (q, x) :: l => if list_eq_dec (list_eq_dec N.eq_dec) p q then Some x else file_in l p
  end.
